(* What a lookup in the directory keeps, and whom it asks (property C38). *)
From Coq Require Import NArith List Bool Lia Arith.
From Coq Require Import ZifyBool ZifyNat ZifyN.
From Verif Require Import DhtModel.
Import ListNotations.
Open Scope N_scope.

(* -- Specification ---------------------------------------------------------- *)

(* What happens to a lookup: a request goes out under a cookie; a response
   comes in, its addresses or its contacts are used; the next contacts are
   taken to be asked; the caller waits, or waited too long. *)
Inductive event : Type :=
| Sent (cookie : N)
| Response (cookie : N) (addrs : list N)
| Contacts (cs : list (ident * N))
| Ask
| Wait
| Timeout.

(* A lookup and the contacts it has asked so far. *)
Definition handle (k : nat) (lu : lookup) (e : event) : lookup * list contact :=
  match e with
  | Sent c => (lookup_sent lu c, [])
  | Response c a => (fst (lookup_update1 lu c a), [])
  | Contacts cs => (lookup_update2 k lu cs, [])
  | Ask => lookup_new_addrs lu
  | Wait => (lookup_wait_begin lu, [])
  | Timeout => (lookup_wait_timeout lu, [])
  end.

Fixpoint run (k : nat) (lu : lookup) (h : list event) : lookup * list contact :=
  match h with
  | [] => (lu, [])
  | e :: h' =>
    let '(lu1, a1) := handle k lu e in
    let '(lu2, a2) := run k lu1 h' in (lu2, a1 ++ a2)
  end.

(* The ids that the lookup was told about. *)
Fixpoint told (h : list event) : list ident :=
  match h with
  | [] => []
  | Contacts cs :: h' => map fst cs ++ told h'
  | _ :: h' => told h'
  end.

(* Kademlia's lookup: of the ids it knew, the k that are closest to the key;
   all of them if there are no more than k. *)
Definition keeps_closest (k : nat) (key : ident) (known kept : list ident) : Prop :=
  NoDup kept /\ incl kept known /\ (length kept <= k)%nat /\
  forall i, In i known -> ~ In i kept ->
    length kept = k /\ forall j, In j kept -> dist j key <= dist i key.

(* The same with the farthest. *)
Definition keeps_farthest (k : nat) (key : ident) (known kept : list ident) : Prop :=
  NoDup kept /\ incl kept known /\ (length kept <= k)%nat /\
  forall i, In i known -> ~ In i kept ->
    length kept = k /\ forall j, In j kept -> dist i key <= dist j key.

(* The contacts that a lookup starts with: at most k of them, in the order
   of list_add_sorted, with different ids. *)
Fixpoint from_bucket (key : ident) (cs : list contact) : list contact :=
  match cs with [] => [] | c :: cs' => list_add_sorted (from_bucket key cs') c key end.

Definition ids (l : list contact) : list ident := map c_id l.

(* -- Proofs ------------------------------------------------------------------ *)

Lemma id_eqb_spec : forall a b, id_eqb a b = true <-> a = b.
Proof.
  induction a as [|x a IH]; intros [|y b]; cbn; split; try discriminate; try reflexivity.
  - intros E. apply andb_true_iff in E. destruct E as [E1 E2].
    apply N.eqb_eq in E1. apply IH in E2. subst. reflexivity.
  - intros E. injection E as <- <-. rewrite N.eqb_refl. cbn. apply IH. reflexivity.
Qed.

(* Farthest first. *)
Fixpoint sorted (key : ident) (l : list contact) : Prop :=
  match l with
  | [] => True
  | e :: l' => (forall f, In f l' -> dist (c_id f) key <= dist (c_id e) key) /\ sorted key l'
  end.

Lemma sorted_app : forall key a b,
  sorted key (a ++ b) <->
  sorted key a /\ sorted key b /\
  (forall e f, In e a -> In f b -> dist (c_id f) key <= dist (c_id e) key).
Proof.
  induction a as [|x a IH]; intros b; cbn.
  - split; [intros A; repeat split; auto; intros ? ? []|intros [_ [A _]]; exact A].
  - rewrite IH. split.
    + intros [A [B [C E]]]. split; [split; [|exact B]|split; [exact C|]].
      * intros f Hf. apply A, in_or_app. left. exact Hf.
      * intros e f [<-|He] Hf; [apply A, in_or_app; right; exact Hf|exact (E _ _ He Hf)].
    + intros [[A B] [C E]]. split; [|split; [exact B|split; [exact C|]]].
      * intros f Hf. apply in_app_or in Hf. destruct Hf as [Hf|Hf]; [exact (A _ Hf)|].
        apply E; [left; reflexivity|exact Hf].
      * intros e f He Hf. apply E; [right; exact He|exact Hf].
Qed.

Lemma walk_spec : forall key c l,
  sorted key l ->
  match walk key c l with
  | None => In (c_id c) (ids l)
  | Some (a, b) =>
    l = a ++ b /\ ~ In (c_id c) (ids l) /\
    (forall e, In e a -> dist (c_id c) key <= dist (c_id e) key) /\
    (forall e, In e b -> dist (c_id e) key < dist (c_id c) key)
  end.
Proof.
  induction l as [|e l IH]; intros Hs; cbn [walk].
  - repeat split; auto; intros ? [].
  - destruct (id_eqb (c_id e) (c_id c)) eqn:E.
    + apply id_eqb_spec in E. left. exact E.
    + destruct Hs as [Hh Hs].
      destruct (N.ltb_spec (dist (c_id e) key) (dist (c_id c) key)) as [L|L].
      * split; [reflexivity|]. split; [|split].
        -- intros [F|F].
           ++ rewrite <- F in L. lia.
           ++ apply in_map_iff in F. destruct F as [f [F1 F2]].
              specialize (Hh f F2). rewrite F1 in Hh. lia.
        -- intros ? [].
        -- intros f [<-|F]; [exact L|]. specialize (Hh f F). lia.
      * specialize (IH Hs). destruct (walk key c l) as [[a b]|].
        -- destruct IH as [-> [A [B C]]]. split; [reflexivity|]. split; [|split].
           ++ intros [F|F]; [|exact (A F)].
              rewrite F in E. assert (T := proj2 (id_eqb_spec (c_id c) (c_id c)) eq_refl).
              congruence.
           ++ intros f [<-|F]; [exact L|exact (B _ F)].
           ++ exact C.
        -- right. exact IH.
Qed.

Lemma ids_app : forall a b, ids (a ++ b) = ids a ++ ids b.
Proof. intros. apply map_app. Qed.

Definition good (k : nat) (key : ident) (known : list ident) (l : list contact) (n : nat) : Prop :=
  sorted key l /\ n = length l /\ keeps_farthest k key known (ids l).

Lemma ids_length : forall l, length (ids l) = length l.
Proof. intros. apply map_length. Qed.

Lemma NoDup_insert : forall (a b : list ident) x,
  NoDup (a ++ b) -> ~ In x (a ++ b) -> NoDup (a ++ x :: b).
Proof.
  induction a as [|y a IH]; cbn; intros b x Hn Hx.
  - constructor; assumption.
  - inversion Hn as [|? ? H1 H2]; subst. constructor.
    + intros F. apply in_app_or in F. destruct F as [F|[F|F]].
      * apply H1, in_or_app. left. exact F.
      * apply Hx. left. symmetry. exact F.
      * apply H1, in_or_app. right. exact F.
    + apply IH; [exact H2|]. intros F. apply Hx. right. exact F.
Qed.

Lemma sorted_insert : forall key a b c,
  sorted key (a ++ b) ->
  (forall e, In e a -> dist (c_id c) key <= dist (c_id e) key) ->
  (forall e, In e b -> dist (c_id e) key < dist (c_id c) key) ->
  sorted key (a ++ c :: b).
Proof.
  intros key a b c Hs Ha Hb. apply sorted_app in Hs. destruct Hs as [S1 [S2 S3]].
  apply sorted_app. split; [exact S1|]. split.
  - cbn. split; [|exact S2]. intros f Hf. specialize (Hb f Hf). lia.
  - intros e f He [<-|Hf]; [exact (Ha _ He)|exact (S3 _ _ He Hf)].
Qed.

Lemma add_contact_good : forall k key known l n c l' n' m,
  good k key known l n ->
  add_contact k key l n c = (l', n', m) ->
  good k key (c_id c :: known) l' n'.
Proof.
  intros k key known l n c l' n' m [Hs [Hn [Hd [Hi [Hl Hk]]]]] E.
  unfold add_contact in E. assert (W := walk_spec key c l Hs).
  destruct (walk key c l) as [[a b]|].
  - destruct W as [El [Hc [Ha Hb]]].
    assert (Hs' : sorted key (a ++ c :: b)) by (apply sorted_insert; congruence || assumption).
    assert (Hd' : NoDup (ids (a ++ c :: b))).
    { rewrite ids_app. cbn. apply NoDup_insert; rewrite <- ids_app, <- El; assumption. }
    assert (Hi' : incl (ids (a ++ c :: b)) (c_id c :: known)).
    { intros x Hx. rewrite ids_app in Hx. cbn in Hx. apply in_app_or in Hx.
      destruct Hx as [Hx|[Hx|Hx]].
      - right. apply Hi. rewrite El, ids_app. apply in_or_app. left. exact Hx.
      - left. exact Hx.
      - right. apply Hi. rewrite El, ids_app. apply in_or_app. right. exact Hx. }
    assert (Hlen : length (a ++ c :: b) = S (length l)).
    { rewrite El, !app_length. cbn. lia. }
    assert (Hin : forall x, In x (ids l) -> In x (ids (a ++ c :: b))).
    { intros x Hx. rewrite El, ids_app in Hx. rewrite ids_app. apply in_or_app. cbn.
      apply in_app_or in Hx. tauto. }
    destruct (Nat.ltb_spec n k) as [L|L].
    + injection E as <- <- <-. split; [exact Hs'|]. split; [lia|].
      split; [exact Hd'|]. split; [exact Hi'|]. split; [rewrite ids_length; lia|].
      intros i [<-|Hik] Hni.
      * exfalso. apply Hni. rewrite ids_app. apply in_or_app. right. left. reflexivity.
      * destruct (in_dec (list_eq_dec N.eq_dec) i (ids l)) as [F|F].
        -- exfalso. apply Hni, Hin, F.
        -- destruct (Hk i Hik F) as [G _]. rewrite ids_length in G. lia.
    + destruct (Nat.eqb_spec (length a) k) as [G|G].
      * injection E as <- <- <-. split; [exact Hs|]. split; [exact Hn|].
        split; [exact Hd|]. split; [intros x Hx; right; apply Hi, Hx|]. split; [exact Hl|].
        rewrite ids_length in Hl.
        assert (b = []).
        { destruct b as [|b0 b]; [reflexivity|]. rewrite El, app_length in Hl. cbn in Hl. lia. }
        subst b. rewrite app_nil_r in El. subst a.
        intros i [<-|Hik] Hni.
        -- split; [rewrite ids_length; exact G|]. intros j Hj.
           apply in_map_iff in Hj. destruct Hj as [f [<- Hf]]. exact (Ha _ Hf).
        -- exact (Hk i Hik Hni).
      * injection E as <- <- <-.
        assert (Hne : a ++ c :: b <> []) by (destruct a; discriminate).
        destruct (exists_last Hne) as [q [z Eq]]. rewrite Eq in *.
        rewrite removelast_last.
        rewrite app_length in Hlen. cbn in Hlen.
        rewrite ids_length in Hl.
        apply sorted_app in Hs'. destruct Hs' as [Sq [_ Sz]].
        split; [exact Sq|]. split; [lia|].
        rewrite ids_app in Hd', Hi', Hin. cbn in Hd', Hi', Hin.
        split.
        { apply NoDup_remove in Hd'. rewrite app_nil_r in Hd'. exact (proj1 Hd'). }
        split; [intros x Hx; apply Hi', in_or_app; left; exact Hx|].
        split; [rewrite ids_length; lia|].
        intros i Hik Hni. split; [rewrite ids_length; lia|].
        intros j Hj. apply in_map_iff in Hj. destruct Hj as [f [<- Hf]].
        assert (Hz : dist (c_id z) key <= dist (c_id f) key)
          by (apply Sz; [exact Hf|left; reflexivity]).
        destruct Hik as [<-|Hik].
        -- (* the new one was inserted, so it is in q or it is z *)
           assert (Hcin : In (c_id c) (ids q ++ [c_id z])).
           { change [c_id z] with (ids [z]). rewrite <- ids_app, <- Eq, ids_app.
             apply in_or_app. right. left. reflexivity. }
           apply in_app_or in Hcin. destruct Hcin as [F|[F|[]]]; [contradiction|].
           rewrite <- F. exact Hz.
        -- destruct (in_dec (list_eq_dec N.eq_dec) i (ids l)) as [F|F].
           ++ specialize (Hin i F). apply in_app_or in Hin.
              destruct Hin as [F2|[F2|[]]]; [contradiction|]. rewrite <- F2. exact Hz.
           ++ destruct (Hk i Hik F) as [_ K].
              assert (Hzl : dist i key <= dist (c_id z) key \/ z = c).
              { assert (Hzin : In z (a ++ c :: b))
                  by (rewrite Eq; apply in_or_app; right; left; reflexivity).
                apply in_app_or in Hzin. destruct Hzin as [Z|[Z|Z]].
                - left. apply K. rewrite El, ids_app. apply in_or_app. left.
                  apply in_map. exact Z.
                - right. symmetry. exact Z.
                - left. apply K. rewrite El, ids_app. apply in_or_app. right.
                  apply in_map. exact Z. }
              destruct Hzl as [Z|Z]; [lia|]. subst z.
              (* the new one is last: b is empty and a is as long as l *)
              exfalso. apply G.
              assert (b = []).
              { destruct b as [|b0 b1] using rev_ind; [reflexivity|]. exfalso.
                rewrite app_comm_cons, app_assoc in Eq.
                apply app_inj_tail in Eq. destruct Eq as [_ Eb]. subst b0.
                apply Hc. rewrite El, !ids_app. cbn.
                apply in_or_app. right. apply in_or_app. right. left. reflexivity. }
              subst b. rewrite app_nil_r in El. subst a. lia.
  - injection E as <- <- <-. split; [exact Hs|]. split; [exact Hn|]. split; [exact Hd|].
    split; [intros x Hx; right; apply Hi, Hx|]. split; [exact Hl|].
    intros i [<-|Hik] Hni; [contradiction|]. exact (Hk i Hik Hni).
Qed.

Lemma keeps_ext : forall k key a b l,
  (forall x, In x a <-> In x b) -> keeps_farthest k key a l -> keeps_farthest k key b l.
Proof.
  intros k key a b l He [H1 [H2 [H3 H4]]]. split; [exact H1|]. split; [|split; [exact H3|]].
  - intros x Hx. apply He, H2, Hx.
  - intros i Hi. apply H4, He, Hi.
Qed.

Lemma add_contacts_good : forall k key cs known l n m l' n' m',
  good k key known l n ->
  add_contacts k key l n m cs = (l', n', m') ->
  good k key (known ++ map fst cs) l' n'.
Proof.
  induction cs as [|[i a] cs IH]; intros known l n m l' n' m' Hg E; cbn [add_contacts] in E.
  - injection E as <- <- <-. cbn. rewrite app_nil_r. exact Hg.
  - destruct (add_contact k key l n (contact_create i a)) as [[l1 n1] m1] eqn:E1.
    assert (G1 := add_contact_good _ _ _ _ _ _ _ _ _ Hg E1).
    specialize (IH _ _ _ _ _ _ _ G1 E). cbn [c_id contact_create] in IH.
    destruct IH as [S1 [S2 S3]]. split; [exact S1|]. split; [exact S2|].
    eapply keeps_ext; [|exact S3]. intros x. cbn. rewrite !in_app_iff. cbn. tauto.
Qed.

Lemma new_addrs_ids : forall l n r t, new_addrs n l = (r, t) -> ids r = ids l /\ length r = length l.
Proof.
  induction l as [|c l IH]; intros n r t E; cbn [new_addrs] in E.
  - injection E as <- <-. split; reflexivity.
  - destruct n as [|n].
    + injection E as <- <-. split; reflexivity.
    + destruct (c_fails c =? 0).
      * destruct (new_addrs n l) as [r1 t1] eqn:E1. injection E as <- <-.
        destruct (IH _ _ _ E1) as [A B]. unfold ids in *. cbn. rewrite A, B. split; reflexivity.
      * destruct (new_addrs (S n) l) as [r1 t1] eqn:E1. injection E as <- <-.
        destruct (IH _ _ _ E1) as [A B]. unfold ids in *. cbn. rewrite A, B. split; reflexivity.
Qed.

Lemma sorted_ids : forall key l l', ids l = ids l' -> sorted key l -> sorted key l'.
Proof.
  unfold ids; induction l as [|e l IH]; intros [|e' l'] E Hs; cbn in *; try discriminate; [exact I|].
  injection E as E1 E2. destruct Hs as [H1 H2]. split; [|exact (IH _ E2 H2)].
  intros f Hf. assert (F : In (c_id f) (map c_id l)) by (rewrite E2; apply in_map; exact Hf).
  apply in_map_iff in F. destruct F as [g [G1 G2]]. rewrite <- G1, <- E1. exact (H1 _ G2).
Qed.

Definition lgood (k : nat) (known : list ident) (lu : lookup) : Prop :=
  good k (l_key lu) known (l_contacts lu) (l_n lu).

Lemma handle_good : forall k known lu e,
  lgood k known lu ->
  lgood k (known ++ told [e]) (fst (handle k lu e)) /\
  l_key (fst (handle k lu e)) = l_key lu.
Proof.
  intros k known lu e Hg. destruct e as [c|c a|cs| | |]; cbn [handle told fst];
    try (rewrite app_nil_r); try (split; [exact Hg|reflexivity]).
  - unfold lookup_update1. destruct (l_state lu), a; cbn; split; try exact Hg; reflexivity.
  - unfold lookup_update2.
    destruct (add_contacts k (l_key lu) (l_contacts lu) (l_n lu) false cs) as [[l n] m] eqn:E.
    cbn [fst]. split; [|reflexivity]. unfold lgood. cbn [l_key l_contacts l_n].
    exact (add_contacts_good _ _ _ _ _ _ _ _ _ _ Hg E).
  - unfold lookup_new_addrs.
    destruct (new_addrs KAD_ALPHA (l_contacts lu)) as [r t] eqn:E. cbn. split; [|reflexivity].
    destruct (new_addrs_ids _ _ _ _ E) as [A B]. destruct Hg as [G1 [G2 G3]].
    split; [|split].
    + cbn. apply (sorted_ids _ (l_contacts lu)); [symmetry; exact A|exact G1].
    + cbn. congruence.
    + cbn [l_contacts l_key]. rewrite A. exact G3.
Qed.

Lemma told_cons : forall e h, told (e :: h) = told [e] ++ told h.
Proof. intros [] h; cbn; rewrite ?app_nil_r; reflexivity. Qed.

Lemma run_good : forall k h known lu lu' asked,
  lgood k known lu -> run k lu h = (lu', asked) ->
  lgood k (known ++ told h) lu' /\ l_key lu' = l_key lu.
Proof.
  intros k. induction h as [|e h IH]; intros known lu lu' asked Hg E; cbn [run] in E.
  - injection E as <- <-. cbn. rewrite app_nil_r. split; [exact Hg|reflexivity].
  - destruct (handle k lu e) as [lu1 a1] eqn:E1.
    destruct (run k lu1 h) as [lu2 a2] eqn:E2. injection E as <- <-.
    destruct (handle_good k known lu e Hg) as [G K]. rewrite E1 in G, K. cbn in G, K.
    destruct (IH _ _ _ _ G E2) as [A B]. rewrite told_cons, app_assoc.
    split; [exact A|congruence].
Qed.

Lemma add_sorted_in : forall key c l x,
  In x (list_add_sorted l c key) <-> x = c \/ In x l.
Proof.
  induction l as [|e l IH]; intros x; cbn.
  - intuition.
  - destruct (dist (c_id e) key <? dist (c_id c) key); cbn.
    + intuition.
    + rewrite IH. intuition.
Qed.

Lemma add_sorted_sorted : forall key c l, sorted key l -> sorted key (list_add_sorted l c key).
Proof.
  induction l as [|e l IH]; intros Hs; cbn [list_add_sorted].
  - cbn. split; [intros ? []|exact I].
  - destruct Hs as [H1 H2].
    destruct (N.ltb_spec (dist (c_id e) key) (dist (c_id c) key)) as [L|L].
    + cbn. split; [|split; assumption]. intros f [<-|F]; [lia|]. specialize (H1 f F). lia.
    + cbn. split; [|exact (IH H2)]. intros f F. apply add_sorted_in in F.
      destruct F as [->|F]; [exact L|exact (H1 f F)].
Qed.

Lemma add_sorted_ids : forall key c l x,
  In x (ids (list_add_sorted l c key)) <-> x = c_id c \/ In x (ids l).
Proof.
  intros. unfold ids. rewrite !in_map_iff. split.
  - intros [y [E H]]. apply add_sorted_in in H. destruct H as [->|H]; [left; congruence|].
    right. exists y. split; assumption.
  - intros [->|[y [E H]]].
    + exists c. split; [reflexivity|]. apply add_sorted_in. left. reflexivity.
    + exists y. split; [exact E|]. apply add_sorted_in. right. exact H.
Qed.

Lemma add_sorted_nodup : forall key c l,
  NoDup (ids l) -> ~ In (c_id c) (ids l) -> NoDup (ids (list_add_sorted l c key)).
Proof.
  induction l as [|e l IH]; intros Hn Hc; cbn [list_add_sorted].
  - cbn. constructor; [intros []|constructor].
  - destruct (dist (c_id e) key <? dist (c_id c) key).
    + cbn. constructor; assumption.
    + cbn in *. inversion Hn as [|? ? N1 N2]; subst. constructor.
      * intros F. apply (add_sorted_ids key c l) in F. destruct F as [F|F]; [|contradiction].
        apply Hc. left. exact F.
      * apply IH; [exact N2|]. intros F. apply Hc. right. exact F.
Qed.

Lemma from_bucket_facts : forall key cs,
  NoDup (ids cs) ->
  sorted key (from_bucket key cs) /\ NoDup (ids (from_bucket key cs)) /\
  (forall x, In x (ids (from_bucket key cs)) <-> In x (ids cs)) /\
  length (from_bucket key cs) = length cs.
Proof.
  induction cs as [|c cs IH]; intros Hn.
  - cbn. repeat split; auto.
  - cbn in Hn. inversion Hn as [|? ? N1 N2]; subst.
    destruct (IH N2) as [A [B [C E]]]. cbn [from_bucket].
    split; [apply add_sorted_sorted; exact A|]. split.
    + apply add_sorted_nodup; [exact B|]. intros F. apply C in F. contradiction.
    + split.
      * intros x. rewrite add_sorted_ids, C. cbn. intuition.
      * cbn. rewrite <- E. generalize (from_bucket key cs). induction l as [|e l IHl]; cbn.
        -- reflexivity.
        -- destruct (dist (c_id e) key <? dist (c_id c) key); cbn; [reflexivity|].
           rewrite IHl. reflexivity.
Qed.

Lemma start_good : forall k key cs,
  NoDup (ids cs) -> (length cs <= k)%nat ->
  lgood k (ids cs) (lookup_create key (from_bucket key cs)).
Proof.
  intros k key cs Hn Hl. destruct (from_bucket_facts key cs Hn) as [A [B [C E]]].
  split; [exact A|]. split; [reflexivity|]. cbn.
  split; [exact B|]. split; [intros x Hx; apply C; exact Hx|].
  split; [rewrite ids_length; lia|].
  intros i Hi Hni. exfalso. apply Hni, C, Hi.
Qed.

(* -- Theorems ------------------------------------------------------------------ *)

(* The full property C38 is: for every history,
     keeps_closest k key (ids cs ++ told h) (ids (l_contacts lu)).
   It is refuted below: a lookup keeps the k that are FARTHEST from the key. *)

(* What a lookup keeps, exactly, whatever it is told: the k farthest. *)
Theorem dht_lookup_keeps_farthest : forall k key cs h lu asked,
  NoDup (ids cs) -> (length cs <= k)%nat ->
  run k (lookup_create key (from_bucket key cs)) h = (lu, asked) ->
  keeps_farthest k key (ids cs ++ told h) (ids (l_contacts lu)).
Proof.
  intros k key cs h lu asked Hn Hl E.
  destruct (run_good k h (ids cs) _ lu asked (start_good k key cs Hn Hl) E) as [G K].
  destruct G as [_ [_ G]]. rewrite K in G. exact G.
Qed.
Print Assumptions dht_lookup_keeps_farthest.

(* As long as the lookup has heard of no more than k ids it knows them all,
   so what it keeps are the k closest. *)
Theorem dht_lookup_closest_partial : forall k key cs h lu asked known,
  NoDup (ids cs) -> (length cs <= k)%nat ->
  run k (lookup_create key (from_bucket key cs)) h = (lu, asked) ->
  (length known <= k)%nat -> incl (ids cs ++ told h) known ->
  keeps_closest k key (ids cs ++ told h) (ids (l_contacts lu)) /\
  forall i, In i (ids cs ++ told h) -> In i (ids (l_contacts lu)).
Proof.
  intros k key cs h lu asked known Hn Hl E Hk Hi.
  assert (F := dht_lookup_keeps_farthest k key cs h lu asked Hn Hl E).
  destruct F as [F1 [F2 [F3 F4]]].
  assert (All : forall i, In i (ids cs ++ told h) -> In i (ids (l_contacts lu))).
  { intros i Hik. destruct (in_dec (list_eq_dec N.eq_dec) i (ids (l_contacts lu))) as [A|A];
      [exact A|exfalso].
    destruct (F4 i Hik A) as [B _].
    assert (C : (length (i :: ids (l_contacts lu)) <= length known)%nat).
    { apply NoDup_incl_length; [constructor; assumption|].
      intros x [<-|Hx]; [apply Hi; exact Hik|apply Hi, F2, Hx]. }
    cbn in C. lia. }
  split; [|exact All]. split; [exact F1|]. split; [exact F2|]. split; [exact F3|].
  intros i Hik Hni. exfalso. apply Hni, All, Hik.
Qed.
Print Assumptions dht_lookup_closest_partial.

(* With more than k, the closest is thrown away: here the id that IS the key. *)
Definition wkey : ident := [0;0;0;0;0;0;0;0].
Definition wid (i : N) : ident := [0;0;0;0;0;0;0;i].
Definition wstart : list contact := map (fun i => contact_create (wid i) i) [1;2;3;4;5;6;7;8].

Definition whist : list event := [Ask; Sent 1; Wait; Contacts [(wkey, 9)]].

Theorem dht_lookup_closest_refuted :
  exists cs h lu asked,
    NoDup (ids cs) /\ (length cs <= KAD_K)%nat /\
    run KAD_K (lookup_create wkey (from_bucket wkey cs)) h = (lu, asked) /\
    In wkey (told h) /\ ~ In wkey (ids (l_contacts lu)) /\
    ~ keeps_closest KAD_K wkey (ids cs ++ told h) (ids (l_contacts lu)).
Proof.
  remember (run KAD_K (lookup_create wkey (from_bucket wkey wstart)) whist) as r eqn:Er.
  assert (A : ids (l_contacts (fst r)) = map wid [8;7;6;5;4;3;2;1])
    by (rewrite Er; vm_compute; reflexivity).
  destruct r as [lu asked]. cbn [fst] in A.
  exists wstart, whist, lu, asked. split; [|split; [apply le_n|split; [symmetry; exact Er|]]].
  - vm_compute. repeat (constructor; [cbn; intuition discriminate|]). constructor.
  - rewrite A. assert (B : ~ In wkey (map wid [8;7;6;5;4;3;2;1]))
      by (vm_compute; intuition discriminate).
    split; [left; reflexivity|]. split; [exact B|].
    intros [_ [_ [_ K]]].
    destruct (K wkey) as [_ C].
    + apply in_or_app. right. left. reflexivity.
    + exact B.
    + specialize (C (wid 8) (or_introl eq_refl)). vm_compute in C. apply C. reflexivity.
Qed.
Print Assumptions dht_lookup_closest_refuted.

(* -- Whom it asks --------------------------------------------------------------- *)

Lemma in_removelast : forall (l : list contact) x, In x (removelast l) -> In x l.
Proof.
  induction l as [|a l IH]; intros x H; [exact H|].
  cbn in H. destruct l as [|b l]; [destruct H|]. destruct H as [<-|H]; [left; reflexivity|].
  right. apply IH. exact H.
Qed.

Lemma add_contact_new : forall k key known l n c l' n' m x,
  good k key known l n ->
  add_contact k key l n c = (l', n', m) -> In x l' ->
  In x l \/ (x = c /\ ~ In (c_id c) known).
Proof.
  intros k key known l n c l' n' m x [Hs [Hn [_ [_ [Hl Hk]]]]] E Hx.
  unfold add_contact in E. assert (W := walk_spec key c l Hs).
  destruct (walk key c l) as [[a b]|]; [|injection E as <- <- <-; left; exact Hx].
  destruct W as [El [Hc [Ha Hb]]]. rewrite ids_length in Hl.
  assert (Old : ~ In (c_id c) known -> In x (a ++ c :: b) ->
                In x l \/ (x = c /\ ~ In (c_id c) known)).
  { intros K F. apply in_app_or in F. destruct F as [F|[F|F]].
    - left. rewrite El. apply in_or_app. left. exact F.
    - right. split; [symmetry; exact F|exact K].
    - left. rewrite El. apply in_or_app. right. exact F. }
  destruct (in_dec (list_eq_dec N.eq_dec) (c_id c) known) as [K|K].
  - destruct (Hk _ K Hc) as [G1 G2]. rewrite ids_length in G1.
    assert (b = []).
    { destruct b as [|e b]; [reflexivity|]. exfalso.
      assert (F : In (c_id e) (ids l)).
      { rewrite El, ids_app. apply in_or_app. right. left. reflexivity. }
      specialize (G2 _ F). specialize (Hb e (or_introl eq_refl)). lia. }
    subst b. rewrite app_nil_r in El. subst a.
    destruct (Nat.ltb_spec n k) as [L|L]; [lia|].
    destruct (Nat.eqb_spec (length l) k) as [G|G]; [|lia].
    injection E as <- <- <-. left. exact Hx.
  - destruct (Nat.ltb n k); [injection E as <- <- <-; exact (Old K Hx)|].
    destruct (Nat.eqb (length a) k); injection E as <- <- <-; [left; exact Hx|].
    exact (Old K (in_removelast _ _ Hx)).
Qed.

Definition fresh (A : list ident) (l : list contact) : Prop :=
  forall c, In c l -> c_fails c = 0 -> ~ In (c_id c) A.

Lemma add_contacts_fresh : forall k key cs known l n m l' n' m' A,
  good k key known l n -> incl A known -> fresh A l ->
  add_contacts k key l n m cs = (l', n', m') -> fresh A l'.
Proof.
  induction cs as [|[i a] cs IH]; intros known l n m l' n' m' A Hg Hi Hf E; cbn [add_contacts] in E.
  - injection E as <- <- <-. exact Hf.
  - destruct (add_contact k key l n (contact_create i a)) as [[l1 n1] m1] eqn:E1.
    assert (G1 := add_contact_good _ _ _ _ _ _ _ _ _ Hg E1).
    apply (IH _ _ _ _ _ _ _ A G1) in E; [exact E| |].
    + intros x Hx. right. apply Hi, Hx.
    + intros c Hc Hz. destruct (add_contact_new _ _ _ _ _ _ _ _ _ c Hg E1 Hc) as [F|[F1 F2]].
      * exact (Hf c F Hz).
      * intros G. apply F2. subst c. cbn. apply Hi, G.
Qed.

Lemma new_addrs_facts : forall l n r t,
  NoDup (ids l) -> new_addrs n l = (r, t) ->
  NoDup (ids t) /\
  (forall x, In x (ids t) -> exists c, In c l /\ c_id c = x /\ c_fails c = 0) /\
  (forall c, In c r -> c_fails c = 0 -> In c l /\ ~ In (c_id c) (ids t)) /\
  (length t <= n)%nat.
Proof.
  induction l as [|c l IH]; intros n r t Hn E; cbn [new_addrs] in E.
  - injection E as <- <-. split; [constructor|]. split; [intros ? []|]. split; [intros ? []|]. cbn. lia.
  - cbn in Hn. inversion Hn as [|? ? N1 N2]; subst. destruct n as [|n].
    + injection E as <- <-. split; [constructor|]. split; [intros ? []|].
      split; [|cbn; lia]. intros d Hd Hz. split; [exact Hd|intros []].
    + destruct (N.eqb_spec (c_fails c) 0) as [Z|Z].
      * destruct (new_addrs n l) as [r1 t1] eqn:E1. injection E as <- <-.
        destruct (IH _ _ _ N2 E1) as [A [B [C D]]].
        split.
        { cbn. constructor; [|exact A]. intros F. destruct (B _ F) as [d [D1 [D2 _]]].
          apply N1. rewrite <- D2. apply in_map. exact D1. }
        split.
        { cbn. intros x [<-|Hx].
          - exists c. split; [left; reflexivity|]. split; [reflexivity|exact Z].
          - destruct (B x Hx) as [d [D1 D2]]. exists d. split; [right; exact D1|exact D2]. }
        split; [|cbn; lia].
        intros d [<-|Hd] Hz; [cbn in Hz; discriminate|].
        destruct (C d Hd Hz) as [D1 D2]. split; [right; exact D1|].
        cbn. intros [F|F]; [|exact (D2 F)]. apply N1. rewrite F. apply in_map. exact D1.
      * destruct (new_addrs (S n) l) as [r1 t1] eqn:E1. injection E as <- <-.
        destruct (IH _ _ _ N2 E1) as [A [B [C D]]].
        split; [exact A|]. split.
        { intros x Hx. destruct (B x Hx) as [d [D1 D2]]. exists d. split; [right; exact D1|exact D2]. }
        split; [|exact D].
        intros d [<-|Hd] Hz; [contradiction|].
        destruct (C d Hd Hz) as [D1 D2]. split; [right; exact D1|exact D2].
Qed.

Lemma NoDup_app2 : forall (a b : list ident),
  NoDup a -> NoDup b -> (forall x, In x a -> ~ In x b) -> NoDup (a ++ b).
Proof.
  induction a as [|x a IH]; cbn; intros b Ha Hb Hd; [exact Hb|].
  inversion Ha as [|? ? H1 H2]; subst. constructor.
  - intros F. apply in_app_or in F. destruct F as [F|F]; [exact (H1 F)|].
    exact (Hd x (or_introl eq_refl) F).
  - apply IH; [exact H2|exact Hb|]. intros y Hy. apply Hd. right. exact Hy.
Qed.

Lemma handle_asks : forall k known lu e lu' t A,
  lgood k known lu -> incl A known -> fresh A (l_contacts lu) -> NoDup A ->
  handle k lu e = (lu', t) ->
  NoDup (A ++ ids t) /\ incl (A ++ ids t) (known ++ told [e]) /\
  fresh (A ++ ids t) (l_contacts lu').
Proof.
  intros k known lu e lu' t A Hg Hi Hf Hn E.
  assert (Same : forall l2, t = [] -> l_contacts lu' = l_contacts lu ->
     NoDup (A ++ ids t) /\ incl (A ++ ids t) (known ++ l2) /\ fresh (A ++ ids t) (l_contacts lu')).
  { intros l2 -> ->. cbn. rewrite app_nil_r. split; [exact Hn|]. split; [|exact Hf].
    intros x Hx. apply in_or_app. left. apply Hi, Hx. }
  destruct e as [c|c a|cs| | |]; cbn [handle told] in E |- *.
  - injection E as <- <-. apply Same; reflexivity.
  - injection E as <- <-. apply Same; [reflexivity|].
    unfold lookup_update1. destruct (l_state lu), a; reflexivity.
  - unfold lookup_update2 in E.
    destruct (add_contacts k (l_key lu) (l_contacts lu) (l_n lu) false cs) as [[l n] m] eqn:E1.
    injection E as <- <-. cbn [ids map l_contacts]. rewrite !app_nil_r.
    split; [exact Hn|]. split; [intros x Hx; apply in_or_app; left; apply Hi, Hx|].
    exact (add_contacts_fresh _ _ _ _ _ _ _ _ _ _ A Hg Hi Hf E1).
  - unfold lookup_new_addrs in E.
    destruct (new_addrs KAD_ALPHA (l_contacts lu)) as [r u] eqn:E1. injection E as <- <-.
    destruct Hg as [_ [_ [G1 [G2 _]]]].
    destruct (new_addrs_facts _ _ _ _ G1 E1) as [B1 [B2 [B3 _]]].
    cbn [l_contacts]. rewrite app_nil_r. split; [|split].
    + apply NoDup_app2; [exact Hn|exact B1|]. intros x Hx F.
      destruct (B2 x F) as [c [C1 [C2 C3]]]. apply (Hf c C1 C3). rewrite C2. exact Hx.
    + intros x Hx. apply in_app_or in Hx. destruct Hx as [Hx|Hx]; [exact (Hi _ Hx)|].
      destruct (B2 x Hx) as [c [C1 [<- _]]]. apply G2. apply in_map. exact C1.
    + intros c Hc Hz. destruct (B3 c Hc Hz) as [C1 C2]. intros F. apply in_app_or in F.
      destruct F as [F|F]; [exact (Hf c C1 Hz F)|exact (C2 F)].
  - injection E as <- <-. apply Same; reflexivity.
  - injection E as <- <-. apply Same; reflexivity.
Qed.

Lemma run_asks : forall k h known lu lu' t A,
  lgood k known lu -> incl A known -> fresh A (l_contacts lu) -> NoDup A ->
  run k lu h = (lu', t) ->
  NoDup (A ++ ids t) /\ incl (A ++ ids t) (known ++ told h).
Proof.
  intros k. induction h as [|e h IH]; intros known lu lu' t A Hg Hi Hf Hn E; cbn [run] in E.
  - injection E as <- <-. cbn. rewrite !app_nil_r. split; assumption.
  - destruct (handle k lu e) as [lu1 a1] eqn:E1.
    destruct (run k lu1 h) as [lu2 a2] eqn:E2. injection E as <- <-.
    destruct (handle_good k known lu e Hg) as [G _]. rewrite E1 in G. cbn [fst] in G.
    destruct (handle_asks _ _ _ _ _ _ _ Hg Hi Hf Hn E1) as [B1 [B2 B3]].
    destruct (IH _ _ _ _ _ G B2 B3 B1 E2) as [C1 C2].
    rewrite ids_app, told_cons, !app_assoc. split; assumption.
Qed.

(* A lookup asks no id twice, although it may hear again of an id that it
   threw away, and it asks only ids it was told about. *)
Theorem dht_lookup_asks_once : forall k key cs h lu asked,
  NoDup (ids cs) -> (length cs <= k)%nat ->
  run k (lookup_create key (from_bucket key cs)) h = (lu, asked) ->
  NoDup (ids asked) /\ incl (ids asked) (ids cs ++ told h).
Proof.
  intros k key cs h lu asked Hn Hl E.
  apply (run_asks k h (ids cs) _ lu asked [] (start_good k key cs Hn Hl)) in E.
  - exact E.
  - intros ? [].
  - intros c _ _ [].
  - constructor.
Qed.
Print Assumptions dht_lookup_asks_once.

(* So a lookup sends at most one request for each id it was told about, and
   ends: if all its ids are among known, it asks at most as many. *)
Corollary dht_lookup_bounded : forall k key cs h lu asked known,
  NoDup (ids cs) -> (length cs <= k)%nat ->
  run k (lookup_create key (from_bucket key cs)) h = (lu, asked) ->
  incl (ids cs ++ told h) known -> (length asked <= length known)%nat.
Proof.
  intros k key cs h lu asked known Hn Hl E Hi.
  destruct (dht_lookup_asks_once k key cs h lu asked Hn Hl E) as [A B].
  rewrite <- ids_length. apply NoDup_incl_length; [exact A|].
  intros x Hx. apply Hi, B, Hx.
Qed.
Print Assumptions dht_lookup_bounded.

(* Non-vacuous: nine contacts are told, the ninth closest; three rounds of
   questions reach eight of them once. *)
Example dht_lookup_case :
  let '(lu, asked) := run KAD_K (lookup_create wkey (from_bucket wkey wstart))
    [Ask; Sent 1; Wait; Contacts [(wid 9, 9); (wid 1, 1)]; Ask; Contacts [(wid 1, 1)]; Ask; Ask] in
  ids (l_contacts lu) = map wid [9;8;7;6;5;4;3;2] /\
  ids asked = map wid [8;7;6;9;5;4;3;2] /\ NoDup (ids wstart).
Proof.
  vm_compute. split; [reflexivity|split; [reflexivity|]].
  repeat (constructor; [cbn; intuition discriminate|]). constructor.
Qed.

Example dht_lookup_small_case :
  let '(lu, _) := run KAD_K (lookup_create wkey (from_bucket wkey []))
    [Contacts [(wid 3, 3); (wid 1, 1)]; Contacts [(wid 2, 2); (wid 1, 1)]] in
  ids (l_contacts lu) = [wid 3; wid 2; wid 1].
Proof. reflexivity. Qed.
