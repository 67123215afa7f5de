(** Proofs about the linked lists. *)
From Coq Require Import List Arith Bool Lia.
From Verif Require Import ListModel ListSpec.
Import ListNotations.

(** The links from [a] through [l] to [z]. *)
Fixpoint chain (m : mem) (a : nat) (l : list nat) (z : nat) : Prop :=
  match l with
  | [] => nxt m a = z /\ prv m z = a
  | x :: t => (nxt m a = x /\ prv m x = a) /\ chain m x t z
  end.

Lemma chain_app : forall m l1 a x l2 z, chain m a (l1 ++ x :: l2) z <-> chain m a l1 x /\ chain m x l2 z.
Proof.
  induction l1 as [|y t IH]; intros a x l2 z; cbn [chain app].
  - tauto.
  - rewrite IH. tauto.
Qed.

Lemma chain_ext : forall m m' l a z,
  (forall x, In x (a :: l) -> nxt m' x = nxt m x) ->
  (forall x, In x (l ++ [z]) -> prv m' x = prv m x) ->
  chain m a l z -> chain m' a l z.
Proof.
  induction l as [|y t IH]; intros a z HN HP H; cbn [chain] in *.
  - rewrite HN by (left; reflexivity). rewrite HP by (left; reflexivity). exact H.
  - destruct H as [[A B] C]. split.
    + rewrite HN by (left; reflexivity). rewrite HP by (left; reflexivity). split; assumption.
    + apply IH; [| |exact C].
      * intros x I. apply HN. right. exact I.
      * intros x I. apply HP. right. exact I.
Qed.

Lemma chain_first : forall m l a z, chain m a l z -> nxt m a = hd z l.
Proof. intros m [|x t] a z H; cbn [chain hd] in *; tauto. Qed.

Lemma chain_last : forall m l a z, chain m a l z -> prv m z = last l a.
Proof.
  intros m l. destruct l as [|x t] using rev_ind; intros a z H.
  - cbn in *. tauto.
  - apply (proj1 (chain_app m t a x [] z)) in H. destruct H as [_ H]. cbn [chain] in H.
    rewrite last_last. tauto.
Qed.

Definition ring (m : mem) (h : nat) (l : list nat) : Prop := NoDup (h :: l) /\ chain m h l h.

Lemma upd_same : forall A (f : nat -> A) a v, upd f a v a = v.
Proof. intros. unfold upd. rewrite Nat.eqb_refl. reflexivity. Qed.
Lemma upd_other : forall A (f : nat -> A) a v x, x <> a -> upd f a v x = f x.
Proof. intros. unfold upd. apply Nat.eqb_neq in H. rewrite H. reflexivity. Qed.

Ltac ups := repeat first [rewrite upd_same | rewrite upd_other by (first [assumption | congruence])].

Lemma add_ring : forall m h l n, ring m h l -> ~ In n (h :: l) -> ring (list_add n h m) h (n :: l).
Proof.
  intros m h l n [ND C] NI.
  assert (NH : n <> h) by (intro E; apply NI; left; congruence).
  assert (NL : ~ In n l) by (intro E; apply NI; right; exact E).
  inversion ND as [|? ? HL NDL]; subst. split.
  { constructor; [intros [E|E]; [congruence|contradiction]|]. constructor; assumption. }
  unfold list_add. rewrite (chain_first _ _ _ _ C).
  unfold add_list, set_nxt, set_prv. cbn [nxt prv].
  destruct l as [|x t]; cbn [hd chain nxt prv] in *.
  - split; [split; ups; reflexivity|]. split; ups; reflexivity.
  - assert (x <> h) by (intro; apply HL; left; assumption).
    assert (n <> x) by (intro; apply NL; left; congruence).
    split; [split; ups; reflexivity|]. split; [split; ups; reflexivity|].
    destruct C as [_ C]. inversion NDL as [|? ? XT NT]; subst.
    eapply chain_ext; [| |exact C]; cbn [nxt prv].
    + intros y I. assert (y <> h) by (intro; subst; apply HL; exact I).
      assert (y <> n) by (intro; subst; apply NL; exact I). ups. reflexivity.
    + intros y I. apply in_app_or in I. destruct I as [I|[I|[]]].
      * assert (y <> x) by (intro; subst; apply XT; exact I).
        assert (y <> n) by (intro; subst; apply NL; right; exact I). ups. reflexivity.
      * subst y. ups. reflexivity.
Qed.

Lemma NoDup_snoc : forall (l : list nat) x, NoDup (l ++ [x]) <-> NoDup l /\ ~ In x l.
Proof.
  intros l x. split.
  - intro H. pose proof (NoDup_remove l [] x H) as [A B]. rewrite app_nil_r in *. tauto.
  - intros [A B]. apply NoDup_Add with (a := x) (l := l).
    + replace l with (l ++ []) at 1 by apply app_nil_r. apply Add_app.
    + tauto.
Qed.

Lemma add_tail_ring : forall m h l n, ring m h l -> ~ In n (h :: l) -> ring (list_add_tail n h m) h (l ++ [n]).
Proof.
  intros m h l n [ND C] NI.
  assert (NH : n <> h) by (intro E; apply NI; left; congruence).
  assert (NL : ~ In n l) by (intro E; apply NI; right; exact E).
  inversion ND as [|? ? HL NDL]; subst. split.
  { change (NoDup ((h :: l) ++ [n])). apply NoDup_snoc. split; assumption. }
  unfold list_add_tail. rewrite (chain_last _ _ _ _ C).
  unfold add_list, set_nxt, set_prv. cbn [nxt prv].
  destruct l as [|y t _] using rev_ind.
  - cbn [last app chain nxt prv]. split; [split; ups; reflexivity|]. split; ups; reflexivity.
  - rewrite last_last. apply (proj1 (chain_app _ _ _ _ _ _)) in C. destruct C as [C1 C2].
    assert (HY : y <> h) by (intro; apply HL; apply in_or_app; right; left; assumption).
    assert (NY : n <> y) by (intro; apply NL; apply in_or_app; right; left; congruence).
    apply NoDup_snoc in NDL. destruct NDL as [NT YT].
    rewrite <- app_assoc. cbn [app]. apply chain_app. split.
    + eapply chain_ext; [| |exact C1]; cbn [nxt prv].
      * intros z [I|I].
        -- subst z. ups. reflexivity.
        -- assert (z <> y) by (intro; subst; apply YT; exact I).
           assert (z <> n) by (intro; subst; apply NL; apply in_or_app; left; exact I). ups. reflexivity.
      * intros z I.
        assert (z <> h) by (intro; subst; apply HL; exact I).
        assert (z <> n) by (intro; subst; apply NL; exact I). ups. reflexivity.
    + cbn [chain nxt prv]. split; [split; ups; reflexivity|]. split; ups; reflexivity.
Qed.

(** Taking [e] out of its neighbours' links. *)
Lemma del_links : forall m h l1 e l2, NoDup (h :: l1 ++ e :: l2) -> chain m h (l1 ++ e :: l2) h ->
  chain (del_list (prv m e) (nxt m e) m) h (l1 ++ l2) h.
Proof.
  intros m h l1 e l2 ND C.
  apply (proj1 (chain_app _ _ _ _ _ _)) in C. destruct C as [C1 C2].
  rewrite (chain_last _ _ _ _ C1), (chain_first _ _ _ _ C2).
  unfold del_list, set_nxt, set_prv. cbn [nxt prv].
  inversion ND as [|? ? HL NDL]; subst.
  assert (H1 : ~ In h l1) by (intro; apply HL; apply in_or_app; left; assumption).
  assert (H2 : ~ In h l2) by (intro; apply HL; apply in_or_app; right; right; assumption).
  assert (D : forall z, In z l1 -> In z l2 -> False).
  { clear - NDL. intros z A B. apply NoDup_remove in NDL. destruct NDL as [X _].
    induction l1 as [|y t IH]; cbn in *; [contradiction|]. inversion X as [|? ? P Q]; subst.
    destruct A as [<- | A]; [apply P; apply in_or_app; right; exact B|]. exact (IH Q A). }
  assert (N1 : NoDup l1 /\ NoDup l2).
  { clear - NDL. apply NoDup_remove in NDL. destruct NDL as [X _].
    induction l1 as [|y t IH]; cbn in *; [split; [constructor|assumption]|].
    inversion X as [|? ? P Q]; subst. destruct (IH Q) as [A B]. split; [|exact B].
    constructor; [intro I; apply P; apply in_or_app; left; exact I|exact A]. }
  destruct N1 as [N1 N2]. clear HL NDL ND.
  (* the part before [e] *)
  assert (L1 : forall y t, l1 = t ++ [y] -> ~ In y t /\ y <> h).
  { intros y t E. subst l1. apply NoDup_snoc in N1. split; [tauto|].
    intro; subst; apply H1; apply in_or_app; right; left; reflexivity. }
  destruct l2 as [|x u]; cbn [hd].
  - rewrite app_nil_r. destruct l1 as [|y t _] using rev_ind.
    + cbn [last chain nxt prv]. split; ups; reflexivity.
    + rewrite last_last. destruct (L1 y t eq_refl) as [YT YH].
      apply (proj1 (chain_app _ _ _ _ _ _)) in C1. destruct C1 as [C1 _].
      apply chain_app. split; [|cbn [chain nxt prv]; split; ups; reflexivity].
      eapply chain_ext; [| |exact C1]; cbn [nxt prv].
      * intros z I. assert (z <> y).
        { intro; subst. destruct I as [I|I]; [congruence|contradiction]. } ups. reflexivity.
      * intros z I. assert (z <> h) by (intro; subst; apply H1; exact I). ups. reflexivity.
  - cbn [chain] in C2. destruct C2 as [_ C2].
    assert (XH : x <> h) by (intro; apply H2; left; assumption).
    inversion N2 as [|? ? XU NU]; subst.
    apply chain_app. split.
    + destruct l1 as [|y t _] using rev_ind.
      * cbn [last chain nxt prv]. split; ups; reflexivity.
      * rewrite last_last. destruct (L1 y t eq_refl) as [YT YH].
        apply (proj1 (chain_app _ _ _ _ _ _)) in C1. destruct C1 as [C1 _].
        apply chain_app. split; [|cbn [chain nxt prv]; split; ups; reflexivity].
        eapply chain_ext; [| |exact C1]; cbn [nxt prv].
        -- intros z I. assert (z <> y).
           { intro; subst. destruct I as [I|I]; [congruence|contradiction]. } ups. reflexivity.
        -- intros z I. assert (z <> x) by (intro; subst; apply (D x I); left; reflexivity). ups. reflexivity.
    + eapply chain_ext; [| |exact C2]; cbn [nxt prv].
      * intros z I. assert (z <> last l1 h).
        { destruct l1 as [|y t _] using rev_ind; cbn [last].
          - intro; subst. apply H2. exact I.
          - rewrite last_last. intro; subst. apply (D y); [apply in_or_app; right; left; reflexivity|exact I]. }
        ups. reflexivity.
      * intros z I. assert (z <> x).
        { apply in_app_or in I. destruct I as [I|[I|[]]]; [intro; subst; contradiction|congruence]. }
        ups. reflexivity.
Qed.

Lemma remove_out : forall e l, ~ In e l -> remove e l = l.
Proof.
  induction l as [|x t IH]; intro H; cbn; [reflexivity|].
  destruct (Nat.eqb_spec x e) as [E|E]; [exfalso; apply H; left; exact E|]. cbn [negb].
  f_equal. apply IH. intro I. apply H. right. exact I.
Qed.
Lemma remove_mid : forall e a b, NoDup (a ++ e :: b) -> remove e (a ++ e :: b) = a ++ b.
Proof.
  intros e a b H. apply NoDup_remove in H. destruct H as [_ H].
  unfold remove. rewrite filter_app. cbn [filter]. rewrite Nat.eqb_refl. cbn [negb].
  f_equal; apply remove_out; intro I; apply H; apply in_or_app; tauto.
Qed.
Lemma remove_in : forall e l x, In x (remove e l) <-> In x l /\ x <> e.
Proof.
  intros e l x. unfold remove. rewrite filter_In. destruct (Nat.eqb_spec x e); cbn; intuition congruence.
Qed.
Lemma remove_nodup : forall e l, NoDup l -> NoDup (remove e l).
Proof. intros. apply NoDup_filter. assumption. Qed.

Lemma ring_off : forall m m' h l, (forall x, In x (h :: l) -> nxt m' x = nxt m x /\ prv m' x = prv m x) ->
  ring m h l -> ring m' h l.
Proof.
  intros m m' h l H [A B]. split; [exact A|]. eapply chain_ext; [| |exact B].
  - intros x I. apply H. exact I.
  - intros x I. apply H. apply in_app_or in I. destruct I as [I|[I|[]]]; [right; exact I|left; exact I].
Qed.

Lemma del_ring : forall m h l e, ring m h l -> In e l ->
  ring (list_del e m) h (remove e l) /\ ring (list_del e m) e [].
Proof.
  intros m h l e [ND C] I. destruct (in_split _ _ I) as [a [b E]]. subst l.
  inversion ND as [|? ? HL NDL]; subst.
  pose proof (del_links m h a e b ND C) as D.
  rewrite remove_mid by exact NDL. split.
  - split.
    + constructor; [intro J; apply HL; apply in_app_or in J; apply in_or_app; cbn; tauto|].
      apply NoDup_remove in NDL. tauto.
    + unfold list_del. cbv zeta. apply NoDup_remove in NDL.
      eapply chain_ext; [| |exact D]; unfold set_nxt, set_prv; cbn [nxt prv].
      * intros x J. apply upd_other. intro; subst. destruct J as [J|J]; [apply HL; apply in_or_app; right; left; congruence|tauto].
      * intros x J. apply upd_other. intro; subst. apply in_app_or in J.
        destruct J as [J|[J|[]]]; [tauto|]. apply HL. apply in_or_app; right; left; congruence.
  - split; [repeat constructor; intros []|]. unfold list_del, set_nxt, set_prv. cbn [chain nxt prv]. split; ups; reflexivity.
Qed.

Lemma del_alone : forall m e, ring m e [] -> forall x, nxt (list_del e m) x = nxt m x /\ prv (list_del e m) x = prv m x.
Proof.
  intros m e [_ [A B]] x. unfold list_del, del_list, set_nxt, set_prv. cbn [nxt prv]. rewrite A, B.
  unfold upd. destruct (Nat.eqb_spec x e) as [E|E]; [subst; split; congruence|split; reflexivity].
Qed.

(** What each call leaves alone. *)
Lemma add_list_off : forall n p q m x, x <> n -> x <> p -> x <> q ->
  nxt (add_list n p q m) x = nxt m x /\ prv (add_list n p q m) x = prv m x.
Proof. intros. unfold add_list, set_nxt, set_prv. cbn [nxt prv]. split; ups; reflexivity. Qed.
Lemma del_list_off : forall p q m x, x <> p -> x <> q ->
  nxt (del_list p q m) x = nxt m x /\ prv (del_list p q m) x = prv m x.
Proof. intros. unfold del_list, set_nxt, set_prv. cbn [nxt prv]. split; ups; reflexivity. Qed.

Lemma hd_in : forall (h : nat) l, In (hd h l) (h :: l).
Proof. intros h [|x t]; cbn; tauto. Qed.
Lemma last_in : forall (l : list nat) h, In (last l h) (h :: l).
Proof.
  intros l h. destruct l as [|y t _] using rev_ind; [left; reflexivity|].
  rewrite last_last. right. apply in_or_app. right. left. reflexivity.
Qed.

Lemma around : forall m h l e, ring m h l -> In e l -> In (nxt m e) (h :: l) /\ In (prv m e) (h :: l).
Proof.
  intros m h l e [_ C] I. destruct (in_split _ _ I) as [a [b E]]. subst l.
  apply (proj1 (chain_app _ _ _ _ _ _)) in C. destruct C as [C1 C2].
  rewrite (chain_first _ _ _ _ C2), (chain_last _ _ _ _ C1). split.
  - destruct (hd_in h b) as [H|H]; [left; exact H|right; apply in_or_app; right; right; exact H].
  - destruct (last_in a h) as [H|H]; [left; exact H|right; apply in_or_app; left; exact H].
Qed.

Lemma list_del_off : forall m h l e x, ring m h l -> In e l -> ~ In x (h :: l) ->
  nxt (list_del e m) x = nxt m x /\ prv (list_del e m) x = prv m x.
Proof.
  intros m h l e x R I N. destruct (around m h l e R I) as [A B].
  assert (x <> e) by (intro; subst; apply N; right; exact I).
  assert (x <> nxt m e) by (intro; subst; contradiction).
  assert (x <> prv m e) by (intro; subst; contradiction).
  unfold list_del, set_nxt, set_prv. cbn [nxt prv]. rewrite !upd_other by assumption.
  apply del_list_off; assumption.
Qed.

(** Moving is taking out and adding. *)
Lemma move_as : forall m e h x, e <> h ->
  nxt (list_move e h m) x = nxt (list_add e h (list_del e m)) x /\
  prv (list_move e h m) x = prv (list_add e h (list_del e m)) x.
Proof.
  intros m e h x NE. unfold list_move, list_del, list_add, add_list, del_list, set_nxt, set_prv.
  cbn [nxt prv]. rewrite (upd_other _ (upd (nxt m) (prv m e) (nxt m e)) e e h) by congruence.
  set (q := upd (nxt m) (prv m e) (nxt m e) h).
  unfold upd. split.
  - destruct (x =? h); [reflexivity|]. destruct (x =? e) eqn:E; reflexivity.
  - destruct (x =? e) eqn:E; [reflexivity|]. destruct (x =? q); reflexivity.
Qed.

(** ** The lists of a history *)
Definition inv (m : mem) (L : lists) : Prop :=
  (forall h l, L h = Some l -> ring m h l) /\
  (forall h1 l1 h2 l2 x, L h1 = Some l1 -> L h2 = Some l2 -> In x (h1 :: l1) -> In x (h2 :: l2) -> h1 = h2).

Lemma inv_ext : forall m m' L L', (forall x, nxt m' x = nxt m x /\ prv m' x = prv m x) -> (forall x, L' x = L x) ->
  inv m L -> inv m' L'.
Proof.
  intros m m' L L' HM HL [A B]. split.
  - intros h l E. rewrite HL in E. apply ring_off with (m := m); [intros; apply HM|apply A; exact E].
  - intros h1 l1 h2 l2 x E1 E2. rewrite HL in E1, E2. eapply B; eassumption.
Qed.

Lemma loose : forall m L n, inv m L -> unused n L \/ L n = Some [] ->
  (forall h l, L h = Some l -> h <> n -> ~ In n (h :: l)) /\ (L n = None \/ L n = Some []).
Proof.
  intros m L n [A B] [[U V]|U].
  - split; [|left; exact U]. intros h l E N [I|I]; [congruence|]. apply V. exists h, l. split; assumption.
  - split; [|right; exact U]. intros h l E N I. apply N. eapply B; [exact E|exact U|exact I|left; reflexivity].
Qed.

Lemma inv_init : forall m L h, inv m L -> may L (Init h) -> inv (list_head_init h m) (means L (Init h)).
Proof.
  intros m L h I M. destruct (loose m L h I M) as [LO _]. destruct I as [A B]. cbn [means]. split.
  - intros g l E. destruct (Nat.eq_dec g h) as [->|N].
    + rewrite upd_same in E. injection E as <-. split; [repeat constructor; intros []|].
      unfold list_head_init, set_nxt, set_prv. cbn [chain nxt prv]. split; ups; reflexivity.
    + rewrite upd_other in E by exact N. apply ring_off with (m := m); [|apply A; exact E].
      intros x J. assert (x <> h) by (intro; subst; exact (LO g l E N J)).
      unfold list_head_init, set_nxt, set_prv. cbn [nxt prv]. split; ups; reflexivity.
  - intros h1 l1 h2 l2 x E1 E2 J1 J2.
    destruct (Nat.eq_dec h1 h) as [->|N1]; destruct (Nat.eq_dec h2 h) as [->|N2]; [reflexivity| | |].
    + rewrite upd_same in E1. injection E1 as <-. rewrite upd_other in E2 by exact N2.
      destruct J1 as [<- | []]. exfalso. exact (LO _ _ E2 N2 J2).
    + rewrite upd_same in E2. injection E2 as <-. rewrite upd_other in E1 by exact N1.
      destruct J2 as [<- | []]. exfalso. exact (LO _ _ E1 N1 J1).
    + rewrite upd_other in E1 by exact N1. rewrite upd_other in E2 by exact N2. eapply B; eassumption.
Qed.

(** Putting a loose element into one list. *)
Lemma inv_put : forall m m' L n h l0 l1, inv m L -> n <> h -> (unused n L \/ L n = Some []) -> L h = Some l0 ->
  ring m' h l1 -> (forall x, In x l1 <-> x = n \/ In x l0) ->
  (forall x, x <> n -> ~ In x (h :: l0) -> nxt m' x = nxt m x /\ prv m' x = prv m x) ->
  inv m' (upd (upd L n None) h (Some l1)).
Proof.
  intros m m' L n h l0 l1 I NH U H0 R MEM OFF. destruct (loose m L n I U) as [LO _]. destruct I as [A B]. split.
  - intros g l E. destruct (Nat.eq_dec g h) as [->|N].
    + rewrite upd_same in E. injection E as <-. exact R.
    + rewrite upd_other in E by exact N. destruct (Nat.eq_dec g n) as [->|N2]; [rewrite upd_same in E; discriminate|].
      rewrite upd_other in E by exact N2. apply ring_off with (m := m); [|apply A; exact E].
      intros x J. apply OFF; [intro; subst; exact (LO g l E N2 J)|].
      intro K. apply N. eapply B; [exact E|exact H0|exact J|exact K].
  - assert (X : forall g l x, L g = Some l -> g <> h -> g <> n -> In x (h :: l1) -> In x (g :: l) -> False).
    { intros g l x E N1 N2 J1 J2. destruct J1 as [J1|J1].
      - apply N1. eapply B; [exact E|exact H0|exact J2|left; exact J1].
      - apply MEM in J1. destruct J1 as [-> | J1]; [exact (LO g l E N2 J2)|].
        apply N1. eapply B; [exact E|exact H0|exact J2|right; exact J1]. }
    intros h1 k1 h2 k2 x E1 E2 J1 J2.
    destruct (Nat.eq_dec h1 h) as [->|N1]; destruct (Nat.eq_dec h2 h) as [->|N2]; [reflexivity| | |].
    + rewrite upd_same in E1. injection E1 as <-. rewrite upd_other in E2 by exact N2.
      destruct (Nat.eq_dec h2 n) as [->|K]; [rewrite upd_same in E2; discriminate|]. rewrite upd_other in E2 by exact K.
      exfalso. exact (X _ _ _ E2 N2 K J1 J2).
    + rewrite upd_same in E2. injection E2 as <-. rewrite upd_other in E1 by exact N1.
      destruct (Nat.eq_dec h1 n) as [->|K]; [rewrite upd_same in E1; discriminate|]. rewrite upd_other in E1 by exact K.
      exfalso. exact (X _ _ _ E1 N1 K J2 J1).
    + rewrite upd_other in E1 by exact N1. rewrite upd_other in E2 by exact N2.
      destruct (Nat.eq_dec h1 n) as [->|K1]; [rewrite upd_same in E1; discriminate|]. rewrite upd_other in E1 by exact K1.
      destruct (Nat.eq_dec h2 n) as [->|K2]; [rewrite upd_same in E2; discriminate|]. rewrite upd_other in E2 by exact K2.
      eapply B; eassumption.
Qed.

Lemma inv_add : forall m L n h, inv m L -> may L (Add n h) -> inv (list_add n h m) (means L (Add n h)).
Proof.
  intros m L n h I [NH [U E]]. destruct (L h) as [l|] eqn:H; [clear E|contradiction]. cbn [means]. rewrite H. cbn [option_map].
  destruct (loose m L n I U) as [LO _]. pose proof (proj1 I h l H) as R.
  apply inv_put with (m := m) (l0 := l); try assumption.
  - apply add_ring; [exact R|]. apply LO; [exact H|congruence].
  - intro x. cbn. intuition congruence.
  - intros x N K. unfold list_add. destruct R as [_ C]. rewrite (chain_first _ _ _ _ C).
    apply add_list_off; [exact N| |]; intro; subst; apply K; [left; reflexivity|apply hd_in].
Qed.
Lemma inv_add_tail : forall m L n h, inv m L -> may L (AddTail n h) -> inv (list_add_tail n h m) (means L (AddTail n h)).
Proof.
  intros m L n h I [NH [U E]]. destruct (L h) as [l|] eqn:H; [clear E|contradiction]. cbn [means]. rewrite H. cbn [option_map].
  destruct (loose m L n I U) as [LO _]. pose proof (proj1 I h l H) as R.
  apply inv_put with (m := m) (l0 := l); try assumption.
  - apply add_tail_ring; [exact R|]. apply LO; [exact H|congruence].
  - intro x. rewrite in_app_iff. cbn. intuition congruence.
  - intros x N K. unfold list_add_tail. destruct R as [_ C]. rewrite (chain_last _ _ _ _ C).
    apply add_list_off; [exact N| |]; intro; subst; apply K; [apply last_in|left; reflexivity].
Qed.

Lemma inv_del : forall m L e, inv m L -> may L (Del e) -> inv (list_del e m) (means L (Del e)).
Proof.
  intros m L e I M. cbn [means]. destruct M as [[h [l [H J]]]|H].
  - pose proof (proj1 I h l H) as R. destruct (del_ring m h l e R J) as [R1 R2].
    destruct I as [A B]. destruct R as [ND C].
    assert (EH : e <> h) by (intro; subst; inversion ND; contradiction).
    assert (OUT : forall g k, L g = Some k -> g <> h -> ~ In e (g :: k)).
    { intros g k E N K. apply N. eapply B; [exact E|exact H|exact K|right; exact J]. }
    assert (LE : L e = None).
    { destruct (L e) as [k|] eqn:E; [|reflexivity]. exfalso. apply (OUT e k E EH). left. reflexivity. }
    split.
    + intros g k E. destruct (Nat.eq_dec g e) as [->|N]; [rewrite upd_same in E; injection E as <-; exact R2|].
      rewrite upd_other in E by exact N. destruct (Nat.eq_dec g h) as [->|N2].
      * rewrite H in E. injection E as <-. exact R1.
      * destruct (L g) as [k'|] eqn:G; [|discriminate]. injection E as <-.
        rewrite remove_out by (intro K; apply (OUT g k' G N2); right; exact K).
        apply ring_off with (m := m); [|apply A; exact G]. intros x K.
        apply list_del_off with (h := h) (l := l); [split; assumption|exact J|].
        intro Q. apply N2. eapply B; [exact G|exact H|exact K|exact Q].
    + intros h1 k1 h2 k2 x E1 E2 J1 J2.
      assert (Y : forall g k, upd (fun y => option_map (remove e) (L y)) e (Some []) g = Some k -> In x (g :: k) ->
                  (g = e /\ x = e) \/ (exists k', L g = Some k' /\ In x (g :: k') /\ x <> e /\ g <> e)).
      { intros g k E K. destruct (Nat.eq_dec g e) as [->|N].
        - rewrite upd_same in E. injection E as <-. destruct K as [<- | []]. left. split; reflexivity.
        - rewrite upd_other in E by exact N. destruct (L g) as [k'|] eqn:G; [|discriminate]. injection E as <-.
          right. exists k'. split; [reflexivity|]. destruct K as [K|K].
          + split; [left; exact K|]. split; [congruence|exact N].
          + apply remove_in in K. destruct K as [K1 K2]. split; [right; exact K1|split; assumption]. }
      destruct (Y h1 k1 E1 J1) as [[P Q]|[k1' [P [Q [S1 T1]]]]];
      destruct (Y h2 k2 E2 J2) as [[P' Q']|[k2' [P' [Q' [S2 T2]]]]]; try congruence.
      eapply B; eassumption.
  - assert (R : ring m e []) by (apply (proj1 I); exact H).
    apply inv_ext with (m := m) (L := L); [intro; apply del_alone; exact R| |exact I].
    intro x. destruct (Nat.eq_dec x e) as [->|N]; [rewrite upd_same; symmetry; exact H|]. rewrite upd_other by exact N.
    destruct (L x) as [k|] eqn:E; [|reflexivity]. cbn [option_map]. rewrite remove_out; [reflexivity|].
    intro J. apply N. eapply (proj2 I); [exact E|exact H|right; exact J|left; reflexivity].
Qed.

Lemma inv_move : forall m L e h, inv m L -> may L (Move e h) -> inv (list_move e h m) (means L (Move e h)).
Proof.
  intros m L e h I [NH [U E]].
  pose proof (inv_del m L e I U) as I1.
  assert (M : may (means L (Del e)) (Add e h)).
  { cbn [may means]. split; [exact NH|]. split; [right; apply upd_same|].
    rewrite upd_other by congruence. destruct (L h); [discriminate|contradiction]. }
  pose proof (inv_add _ _ _ _ I1 M) as I2.
  apply inv_ext with (m := list_add e h (list_del e m)) (L := means (means L (Del e)) (Add e h)); [| |exact I2].
  - intro x. apply move_as. exact NH.
  - intro x. cbn [means]. destruct (Nat.eq_dec x h) as [->|N].
    + rewrite !upd_same. rewrite upd_other by congruence. destruct (L h); reflexivity.
    + rewrite !(upd_other _ _ h _ x) by exact N. destruct (Nat.eq_dec x e) as [->|K].
      * rewrite !upd_same. reflexivity.
      * rewrite !(upd_other _ _ e _ x) by exact K. reflexivity.
Qed.

Lemma inv_op : forall m L o, inv m L -> may L o -> inv (exec m o) (means L o).
Proof.
  intros m L o I M. destruct o; cbn [exec].
  - apply inv_init; assumption.
  - apply inv_add; assumption.
  - apply inv_add_tail; assumption.
  - apply inv_del; assumption.
  - apply inv_move; assumption.
Qed.

Lemma inv_history : forall m0 os L, history os L -> inv (fold_left exec os m0) L.
Proof.
  intros m0 os L H. induction H as [|os L o H IH M].
  - split; [intros; discriminate|intros; discriminate].
  - rewrite fold_left_app. cbn [fold_left]. apply inv_op; assumption.
Qed.

(** ** What the memory shows *)
Lemma each_chain : forall m h l a fuel, chain m a l h -> ~ In h l -> length l < fuel -> each fuel h (nxt m a) m = Some l.
Proof.
  induction l as [|x t IH]; intros a fuel C N F; (destruct fuel as [|f]; [lia|]); cbn [chain each length] in *.
  - destruct C as [C _]. rewrite C, Nat.eqb_refl. reflexivity.
  - destruct C as [[C _] C2]. rewrite C. destruct (Nat.eqb_spec x h) as [E|E]; [exfalso; apply N; left; exact E|].
    rewrite (IH x f C2); [reflexivity| |lia]. intro J. apply N. right. exact J.
Qed.

Lemma ring_shows : forall m h l, ring m h l -> shows m h l.
Proof.
  intros m h l [ND C]. inversion ND as [|? ? HL _]; subst. unfold shows, list_is_empty, list_first, list_last, list_for_each.
  split; [|split; [exact (chain_first _ _ _ _ C)|split; [exact (chain_last _ _ _ _ C)|split]]].
  - rewrite (chain_first _ _ _ _ C). destruct l as [|x t]; cbn [hd]; [apply Nat.eqb_refl|].
    apply Nat.eqb_neq. intro; apply HL; left; assumption.
  - intros fuel F. apply each_chain; assumption.
  - intros e a b E. subst l. apply (proj1 (chain_app _ _ _ _ _ _)) in C. destruct C as [C1 C2].
    split; [exact (chain_first _ _ _ _ C2)|exact (chain_last _ _ _ _ C1)].
Qed.

(** ** list_for_each_safe *)
Definition del_all (xs : list nat) (m : mem) : mem := fold_left (fun m x => list_del x m) xs m.

Lemma safe_runs : forall h d rest kept m gone fuel,
  ring m h (kept ++ rest) -> (forall x, In x gone -> ~ In x (h :: kept ++ rest)) -> length rest < fuel ->
  each_safe fuel h d (hd h rest) (nxt m (hd h rest)) m gone = Some (rest, del_all (filter d rest) m).
Proof.
  intros h d. induction rest as [|p r IH]; intros kept m gone fuel R G F; (destruct fuel as [|f]; [lia|]); cbn [hd each_safe length] in *.
  - rewrite Nat.eqb_refl. reflexivity.
  - pose proof R as [ND C]. inversion ND as [|? ? HL NDL]; subst.
    assert (PH : p <> h) by (intro; subst; apply HL; apply in_or_app; right; left; reflexivity).
    destruct (Nat.eqb_spec p h) as [E|_]; [contradiction|]. cbv zeta.
    assert (T : nxt m p = hd h r).
    { apply (proj1 (chain_app _ _ _ _ _ _)) in C. destruct C as [_ C]. exact (chain_first _ _ _ _ C). }
    rewrite T.
    assert (TI : In (hd h r) (h :: r)) by apply hd_in.
    assert (PR : ~ In p (h :: r)).
    { intros [K|K]; [congruence|]. apply NoDup_remove in NDL. apply (proj2 NDL). apply in_or_app. right. exact K. }
    assert (Q : forall g, (forall x, In x g -> ~ In x (h :: r)) -> existsb (Nat.eqb (hd h r)) g = false).
    { intros g K. destruct (existsb (Nat.eqb (hd h r)) g) eqn:E; [|reflexivity]. exfalso.
      apply existsb_exists in E. destruct E as [x [E1 E2]]. apply Nat.eqb_eq in E2. subst x. exact (K _ E1 TI). }
    assert (G0 : forall x, In x gone -> ~ In x (h :: r)).
    { intros x I J. apply (G x I). destruct J as [J|J]; [left; exact J|right; apply in_or_app; right; right; exact J]. }
    cbn [filter]. destruct (d p) eqn:D.
    + assert (IP : In p (kept ++ p :: r)) by (apply in_or_app; right; left; reflexivity).
      destruct (del_ring m h _ p R IP) as [R1 _]. rewrite remove_mid in R1 by exact NDL.
      rewrite Q by (intros x [<- | I]; [exact PR|exact (G0 x I)]).
      rewrite (IH kept (list_del p m) (p :: gone) f R1); [reflexivity| |lia].
      intros x [<- | I] J.
      * apply NoDup_remove in NDL. destruct J as [J|J]; [congruence|exact (proj2 NDL J)].
      * apply (G x I). destruct J as [J|J]; [left; exact J|right]. apply in_app_or in J. apply in_or_app. cbn. tauto.
    + rewrite Q by exact G0.
      assert (R1 : ring m h ((kept ++ [p]) ++ r)) by (rewrite <- app_assoc; exact R).
      rewrite (IH (kept ++ [p]) m gone f R1); [reflexivity| |lia].
      intros x I. rewrite <- app_assoc. exact (G x I).
Qed.

Lemma inv_del_all : forall xs m L, inv m L -> (forall x, In x xs -> inside x L \/ L x = Some []) ->
  exists L', inv (del_all xs m) L' /\
    forall h, ~ In h xs -> L' h = option_map (filter (fun x => negb (existsb (Nat.eqb x) xs))) (L h).
Proof.
  induction xs as [|e t IH]; intros m L I H; cbn [del_all fold_left].
  - exists L. split; [exact I|]. intros h _. destruct (L h) as [l|]; [|reflexivity]. cbn [option_map existsb negb].
    f_equal. induction l as [|x l IHl]; cbn; [reflexivity|f_equal; exact IHl].
  - pose proof (inv_del m L e I (H e (or_introl eq_refl))) as I1.
    destruct (IH _ _ I1) as [L' [I2 E2]].
    { intros x J. destruct (Nat.eq_dec x e) as [->|N]; [right; apply upd_same|].
      destruct (H x (or_intror J)) as [[h [l [A B]]]|A].
      - left. exists h, (remove e l). cbn [means]. split; [|apply remove_in; split; assumption].
        rewrite upd_other; [rewrite A; reflexivity|]. intro; subst h.
        destruct (H e (or_introl eq_refl)) as [[h' [l' [A' B']]]|A'].
        + assert (e = h') by (eapply (proj2 I); [exact A|exact A'|left; reflexivity|right; exact B']).
          subst h'. rewrite A in A'. injection A' as <-. destruct (proj1 I e l A) as [ND _]. inversion ND; contradiction.
        + rewrite A in A'. injection A' as ->. destruct B.
      - right. cbn [means]. rewrite upd_other by exact N. rewrite A. reflexivity. }
    exists L'. split; [exact I2|]. intros h N. rewrite E2 by (intro; apply N; right; assumption).
    cbn [means]. rewrite upd_other by (intro; apply N; left; congruence).
    destruct (L h) as [l|]; [|reflexivity]. cbn [option_map]. f_equal. unfold remove.
    clear. induction l as [|x l IHl]; [reflexivity|]. cbn [filter existsb].
    destruct (x =? e); cbn [negb orb filter]; [exact IHl|]. destruct (existsb (Nat.eqb x) t); cbn [negb]; [exact IHl|f_equal; exact IHl].
Qed.
