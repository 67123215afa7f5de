(* Where the directory keeps the contacts it hears of (property C40), and
   whether it can answer for every key (property C70). *)
From Coq Require Import NArith List Bool Lia Arith.
From Coq Require Import ZifyBool ZifyNat ZifyN.
From Verif Require Import DhtModel DhtBucketModel.
Import ListNotations.
Open Scope N_scope.

(* -- Specification --------------------------------------------------------- *)

(* A history: the ids and addresses of the nodes heard from, in this order.
   None: undefined behaviour on the way. *)
Fixpoint run (k b : nat) (self : ident) (t : bucket) (h : list (ident * N)) : option bucket :=
  match h with
  | [] => Some t
  | (id, a) :: h' =>
    match dht_update_bucket k b self t id a with
    | None => None
    | Some t' => run k b self t' h'
    end
  end.

(* The contact is in the bucket at this place of the tree. *)
Fixpoint stored (t : bucket) (path : list N) (c : contact) {struct path} : Prop :=
  match path with
  | [] => match t with Leaf cs al => In c cs \/ In c al | Node _ => False end
  | i :: p => match t with Leaf _ _ => False | Node ch => stored (ch i) p c end
  end.

(* A lookup of its own id ends in a bucket that has the contact. *)
Definition found (t : bucket) (c : contact) : Prop :=
  exists p cs al, iter_bucket t 0 (c_id c) = Some (p, Leaf cs al) /\ (In c cs \/ In c al).

(* The id that an address was last heard with. *)
Definition latest (h : list (ident * N)) (a : N) : option ident :=
  fold_left (fun r x => if snd x =? a then Some (fst x) else r) h None.

(* -- Proofs ------------------------------------------------------------------ *)

Fixpoint follows (id : ident) (d : nat) (p : list N) : Prop :=
  match p with
  | [] => True
  | x :: p' => nth_error id d = Some x /\ follows id (S d) p'
  end.

Lemma split_stored : forall fuel d cs t p c,
  split_bucket fuel d cs = Some t -> stored t p c ->
  In c cs /\ follows (c_id c) (S d) p.
Proof.
  assert (F : forall d i cs c, In c (for_child d i cs) -> In c cs /\ nth_error (c_id c) d = Some i).
  { intros d i cs c H. unfold for_child in H. apply in_rev, filter_In in H.
    destruct H as [H1 H2]. split; [exact H1|]. unfold id_byte in H2.
    destruct (nth_error (c_id c) d) as [x|]; [|discriminate]. apply N.eqb_eq in H2. congruence. }
  induction fuel as [|f IH]; intros d cs t p c E H; cbn [split_bucket] in E; [discriminate|].
  destruct cs as [|c0 cs0]; [discriminate|]. set (cs := c0 :: cs0) in *.
  destruct (readable (S d) cs); [|discriminate].
  destruct (id_byte (c_id c0) (S d)) as [i0|]; [|discriminate].
  destruct (Nat.eqb (length (for_child (S d) i0 cs)) (length cs)).
  - destruct (split_bucket f (S d) (for_child (S d) i0 cs)) as [n|] eqn:E1; [|discriminate].
    injection E as <-. destruct p as [|i p]; [destruct H|]. cbn [stored] in H.
    destruct (N.eqb_spec i i0) as [Q|Q].
    + subst i. destruct (IH _ _ _ _ _ E1 H) as [A B]. destruct (F _ _ _ _ A) as [A1 A2].
      split; [exact A1|]. split; assumption.
    + destruct p as [|j p]; [|destruct H]. cbn [stored] in H. destruct H as [H|[]].
      destruct (F _ _ _ _ H) as [A1 A2]. split; [exact A1|]. split; [exact A2|exact I].
  - injection E as <-. destruct p as [|i p]; [destruct H|]. cbn [stored] in H.
    destruct p as [|j p]; [|destruct H]. cbn [stored] in H. destruct H as [H|[]].
    destruct (F _ _ _ _ H) as [A1 A2]. split; [exact A1|]. split; [exact A2|exact I].
Qed.

(* Nothing is lost in a split. *)
Lemma split_keeps : forall fuel d cs t c,
  split_bucket fuel d cs = Some t -> In c cs -> exists p, stored t p c.
Proof.
  induction fuel as [|f IH]; intros d cs t c E H; cbn [split_bucket] in E; [discriminate|].
  destruct cs as [|c0 cs0]; [discriminate|]. set (cs := c0 :: cs0) in *.
  destruct (readable (S d) cs) eqn:R; [|discriminate].
  assert (B : exists i, id_byte (c_id c) (S d) = Some i).
  { unfold readable in R. rewrite forallb_forall in R. specialize (R c H).
    destruct (id_byte (c_id c) (S d)) as [i|]; [exists i; reflexivity|discriminate]. }
  destruct B as [i B].
  assert (G : In c (for_child (S d) i cs)).
  { unfold for_child. rewrite <- in_rev. apply filter_In. split; [exact H|].
    rewrite B. apply N.eqb_refl. }
  destruct (id_byte (c_id c0) (S d)) as [i0|]; [|discriminate].
  destruct (Nat.eqb (length (for_child (S d) i0 cs)) (length cs)).
  - destruct (split_bucket f (S d) (for_child (S d) i0 cs)) as [n|] eqn:E1; [|discriminate].
    injection E as <-. destruct (N.eqb_spec i i0) as [Q|Q].
    + subst i. destruct (IH _ _ _ _ E1 G) as [p P]. exists (i0 :: p). cbn [stored]. rewrite N.eqb_refl.
      exact P.
    + exists [i]. cbn [stored]. destruct (N.eqb_spec i i0); [contradiction|]. left. exact G.
  - injection E as <-. exists [i]. cbn [stored]. left. exact G.
Qed.

Lemma update_stored : forall k b self t d mask c0 t' p c,
  update_bucket k b self t d mask c0 = Some t' -> stored t' p c ->
  (c = c0 /\ exists p0 q, p = p0 ++ q /\ follows (c_id c0) d p0 /\
             follows (c_id c0) (S (d + length p0)) q) \/
  (exists p0 q, p = p0 ++ q /\ stored t p0 c /\ follows (c_id c) (S (d + length p0)) q).
Proof.
  intros k b self. induction t as [cs al|ch IH]; intros d mask c0 t' p c E H; cbn [update_bucket] in E.
  - assert (K : In c (filter (fun x => negb (c_addr x =? c_addr c0)) cs) -> In c cs)
      by (intros X; apply filter_In in X; exact (proj1 X)).
    unfold update_leaf in E. set (cs1 := filter _ cs) in *.
    assert (Old : forall c, In c cs1 -> In c cs)
      by (intros x X; apply filter_In in X; exact (proj1 X)).
    assert (New : forall q, p = q -> c = c0 -> follows (c_id c0) (S d) q ->
      c = c0 /\ exists p0 q, p = p0 ++ q /\ follows (c_id c0) d p0 /\
             follows (c_id c0) (S (d + length p0)) q).
    { intros q -> -> Fq. split; [reflexivity|]. exists [], q. split; [reflexivity|].
      split; [exact I|]. cbn [length]. rewrite Nat.add_0_r. exact Fq. }
    assert (Was : forall q, p = q -> In c cs \/ In c al -> follows (c_id c) (S d) q ->
      exists p0 q, p = p0 ++ q /\ stored (Leaf cs al) p0 c /\ follows (c_id c) (S (d + length p0)) q).
    { intros q -> Hc Fq. exists [], q. split; [reflexivity|]. split; [exact Hc|].
      cbn [length]. rewrite Nat.add_0_r. exact Fq. }
    destruct (Nat.eqb (length cs1) k).
    + destruct (bucket_has_id d mask self) as [[|]|]; [| |discriminate].
      * destruct al as [|a0 al]; [|discriminate].
        destruct (split_stored _ _ _ _ _ _ E H) as [A B].
        apply in_app_or in A. destruct A as [A|[A|[]]].
        -- right. apply (Was p eq_refl); [left; apply Old, A|exact B].
        -- left. apply (New p eq_refl); [symmetry; exact A|rewrite A; exact B].
      * assert (E' : exists l, t' = Leaf cs1 (l ++ [c0]) /\ incl l al).
        { destruct (Nat.eqb (length al) k); injection E as <-.
          - exists (tl al). split; [reflexivity|]. destruct al; [intros ? []|].
            intros x X. right. exact X.
          - exists al. split; [reflexivity|intros x X; exact X]. }
        destruct E' as [l [-> Hl]]. destruct p as [|i p]; [|destruct H].
        cbn in H. destruct H as [H|H].
        -- right. apply (Was [] eq_refl); [left; apply Old, H|exact I].
        -- apply in_app_or in H. destruct H as [H|[H|[]]].
           ++ right. apply (Was [] eq_refl); [right; apply Hl, H|exact I].
           ++ left. apply (New [] eq_refl); [symmetry; exact H|exact I].
    + injection E as <-. destruct p as [|i p]; [|destruct H]. cbn in H. destruct H as [H|H].
      * apply in_app_or in H. destruct H as [H|[H|[]]].
        -- right. apply (Was [] eq_refl); [left; apply Old, H|exact I].
        -- left. apply (New [] eq_refl); [symmetry; exact H|exact I].
      * right. apply (Was [] eq_refl); [right; exact H|exact I].
  - destruct (id_byte (c_id c0) d) as [byte|] eqn:B; [|discriminate].
    destruct (update_bucket k b self (ch byte) (S d) byte c0) as [n|] eqn:E1; [|discriminate].
    injection E as <-. destruct p as [|i p]; [destruct H|]. cbn [stored] in H.
    destruct (N.eqb_spec i byte) as [Q|Q].
    + subst i. destruct (IH _ _ _ _ _ _ _ E1 H) as [[A [p0 [q [P1 [P2 P3]]]]]|[p0 [q [P1 [P2 P3]]]]].
      * left. split; [exact A|]. exists (byte :: p0), q. subst p. split; [reflexivity|].
        split; [split; assumption|]. cbn [length]. rewrite Nat.add_succ_r. exact P3.
      * right. exists (byte :: p0), q. subst p. split; [reflexivity|]. split; [exact P2|].
        cbn [length]. rewrite Nat.add_succ_r. exact P3.
    + right. exists (i :: p), []. rewrite app_nil_r. split; [reflexivity|]. split; [exact H|exact I].
Qed.

Lemma update_keeps_new : forall k b self t d mask c0 t',
  update_bucket k b self t d mask c0 = Some t' -> exists p, stored t' p c0.
Proof.
  intros k b self. induction t as [cs al|ch IH]; intros d mask c0 t' E; cbn [update_bucket] in E.
  - unfold update_leaf in E. set (cs1 := filter _ cs) in *.
    destruct (Nat.eqb (length cs1) k).
    + destruct (bucket_has_id d mask self) as [[|]|]; [| |discriminate].
      * destruct al as [|a0 al]; [|discriminate].
        apply (split_keeps _ _ _ _ c0 E). apply in_or_app. right. left. reflexivity.
      * exists []. destruct (Nat.eqb (length al) k); injection E as <-; cbn; right;
          apply in_or_app; right; left; reflexivity.
    + injection E as <-. exists []. cbn. left. apply in_or_app. right. left. reflexivity.
  - destruct (id_byte (c_id c0) d) as [byte|] eqn:B; [|discriminate].
    destruct (update_bucket k b self (ch byte) (S d) byte c0) as [n|] eqn:E1; [|discriminate].
    injection E as <-. destruct (IH _ _ _ _ _ E1) as [p P]. exists (byte :: p). cbn.
    rewrite N.eqb_refl. exact P.
Qed.

Lemma follows_app : forall id p q d,
  follows id d (p ++ q) <-> follows id d p /\ follows id (d + length p) q.
Proof.
  induction p as [|x p IH]; intros q d; cbn [app follows length].
  - rewrite Nat.add_0_r. tauto.
  - rewrite IH, Nat.add_succ_r. cbn. tauto.
Qed.

Lemma follows_firstn : forall p id d, follows id d p -> p = firstn (length p) (skipn d id).
Proof.
  induction p as [|x p IH]; intros id d H; [reflexivity|]. destruct H as [H1 H2].
  assert (E : skipn d id = x :: skipn (S d) id).
  { clear -H1. revert id H1. induction d as [|d IH]; intros [|y id] H; cbn in *; try discriminate.
    - congruence.
    - apply IH. exact H. }
  rewrite E. cbn [length firstn]. f_equal. apply (IH _ _ H2).
Qed.

Lemma run_placed : forall k b self h t t',
  run k b self t h = Some t' ->
  (forall p c, stored t p c -> exists p0 q, p = p0 ++ q /\ follows (c_id c) 0 p0 /\
                                 follows (c_id c) (S (length p0)) q) ->
  (forall p c, stored t' p c ->
     (exists p0 q, p = p0 ++ q /\ follows (c_id c) 0 p0 /\ follows (c_id c) (S (length p0)) q)) /\
  (forall p c, stored t' p c -> In (c_id c, c_addr c) h \/ exists p0, stored t p0 c).
Proof.
  intros k b self. induction h as [|[id a] h IH]; intros t t' E Ht; cbn [run] in E.
  - injection E as <-. split; [exact Ht|]. intros p c H. right. exists p. exact H.
  - destruct (dht_update_bucket k b self t id a) as [t1|] eqn:E1; [|discriminate].
    assert (H1 : forall p c, stored t1 p c ->
      (exists p0 q, p = p0 ++ q /\ follows (c_id c) 0 p0 /\ follows (c_id c) (S (length p0)) q) /\
      (c = contact_create id a \/ exists p0, stored t p0 c)).
    { intros p c H. destruct (update_stored _ _ _ _ _ _ _ _ _ _ E1 H)
        as [[A [p0 [q [P1 [P2 P3]]]]]|[p0 [q [P1 [P2 P3]]]]].
      - subst c. split; [exists p0, q; auto|left; reflexivity].
      - destruct (Ht _ _ P2) as [r0 [r [R1 [R2 R3]]]]. split; [|right; exists p0; exact P2].
        exists r0, (r ++ q). subst p p0. rewrite app_assoc. split; [reflexivity|].
        split; [exact R2|]. apply follows_app. split; [exact R3|].
        rewrite app_length in P3. exact P3. }
    destruct (IH t1 t' E (fun p c H => proj1 (H1 p c H))) as [A B]. split; [exact A|].
    intros p c H. destruct (B p c H) as [C|[p0 C]]; [left; right; exact C|].
    destruct (H1 p0 c C) as [_ [D|D]]; [left; left|right; exact D].
    subst c. reflexivity.
Qed.

(* -- Theorems (C40) --------------------------------------------------------------- *)

(* The full property C40 is: after every history every stored contact is
   found.  It is refuted below.  What holds of every history: a contact was
   heard of, and it lies on a way that starts with the first n bytes of its
   id but then, since the bucket it was put in was split, goes on with the
   bytes after the next one; so a contact is found for certain as long as its
   bucket has not been split (m = 0). *)
Theorem dht_contact_placed_partial : forall k b self h t p c,
  run k b self bucket_create h = Some t -> stored t p c ->
  In (c_id c, c_addr c) h /\
  exists n m, p = firstn n (c_id c) ++ firstn m (skipn (S n) (c_id c)) /\
              (m = 0%nat -> found t c).
Proof.
  intros k b self h t p c E H.
  destruct (run_placed k b self h bucket_create t E) as [A B].
  { intros q d Hq. destruct q as [|i q]; [cbn in Hq; tauto|destruct Hq]. }
  split.
  - destruct (B p c H) as [C|[p0 C]]; [exact C|].
    destruct p0 as [|i q]; [cbn in C; tauto|destruct C].
  - destruct (A p c H) as [p0 [q [P1 [P2 P3]]]].
    exists (length p0), (length q). split.
    + rewrite P1. f_equal.
      * apply follows_firstn in P2. exact P2.
      * apply follows_firstn in P3. exact P3.
    + intros Z. destruct q; [|discriminate]. rewrite app_nil_r in P1. subst p0.
      unfold found. revert t H P2 E A B. generalize (c_id c) as id, 0%nat as d.
      intros id d t H P2 _ _ _. clear -H P2.
      revert d t H P2. induction p as [|i p IH]; intros d t H P2; destruct t as [cs al|ch]; cbn in H;
        try contradiction.
      * exists [], cs, al. split; [reflexivity|exact H].
      * destruct P2 as [P2 P3]. destruct (IH _ _ H P3) as [r [cs [al [R1 R2]]]].
        exists (i :: r), cs, al. split; [|exact R2]. cbn. unfold id_byte. rewrite P2, R1. reflexivity.
Qed.
Print Assumptions dht_contact_placed_partial.

(* What was heard last is somewhere in the tree. *)
Theorem dht_contact_kept : forall k b self h id a t,
  run k b self bucket_create (h ++ [(id, a)]) = Some t ->
  exists p, stored t p (contact_create id a).
Proof.
  intros k b self h id a t. generalize bucket_create. induction h as [|[i x] h IH]; intros t0 E; cbn [run app] in E.
  - destruct (dht_update_bucket k b self t0 id a) as [t1|] eqn:E1; [|discriminate].
    injection E as <-. exact (update_keeps_new _ _ _ _ _ _ _ _ E1).
  - destruct (dht_update_bucket k b self t0 i x) as [t1|]; [|discriminate]. exact (IH _ E).
Qed.
Print Assumptions dht_contact_kept.

(* As long as no more than k addresses were heard of, each is known with the
   id it was last heard with, and found. *)
Lemma few_leaf : forall k b self known h cs (la : N -> option ident),
  (length known <= k)%nat -> incl (map snd h) known ->
  NoDup (map c_addr cs) -> incl (map c_addr cs) known ->
  (forall c, In c cs -> c_fails c = 0) ->
  (forall a id, In (contact_create id a) cs <-> la a = Some id) ->
  exists cs', run k b self (Leaf cs []) h = Some (Leaf cs' []) /\
    NoDup (map c_addr cs') /\ incl (map c_addr cs') known /\
    (forall c, In c cs' -> c_fails c = 0) /\
    forall a id, In (contact_create id a) cs' <->
      fold_left (fun r x => if snd x =? a then Some (fst x) else r) h (la a) = Some id.
Proof.
  intros k b self known. induction h as [|[id0 a0] h IH]; intros cs la Hk Hi Hn Hc Hf Hl.
  - exists cs. cbn. auto.
  - cbn [run]. unfold dht_update_bucket. cbn [update_bucket]. unfold update_leaf.
    cbn [contact_create c_addr].
    set (cs1 := filter (fun d => negb (c_addr d =? a0)) cs).
    assert (S1 : forall c, In c cs1 <-> In c cs /\ c_addr c <> a0).
    { intros c. unfold cs1. rewrite filter_In.
      destruct (N.eqb_spec (c_addr c) a0); cbn; intuition discriminate. }
    assert (N1 : NoDup (map c_addr cs1)).
    { unfold cs1. clear -Hn. induction cs as [|c cs IH]; cbn in *; [constructor|].
      inversion Hn as [|? ? H1 H2]; subst. destruct (N.eqb_spec (c_addr c) a0); cbn; [exact (IH H2)|].
      constructor; [|exact (IH H2)]. intros F. apply H1. apply in_map_iff in F.
      destruct F as [d [D1 D2]]. apply filter_In in D2. rewrite <- D1. apply in_map. exact (proj1 D2). }
    assert (N2 : ~ In a0 (map c_addr cs1)).
    { intros F. apply in_map_iff in F. destruct F as [d [D1 D2]]. apply S1 in D2. tauto. }
    assert (I1 : incl (map c_addr cs1) known).
    { intros x X. apply in_map_iff in X. destruct X as [d [<- D]]. apply S1 in D. apply Hc, in_map. tauto. }
    assert (L : (S (length cs1) <= k)%nat).
    { rewrite <- (map_length c_addr cs1).
      change (S (length (map c_addr cs1))) with (length (a0 :: map c_addr cs1)).
      apply Nat.le_trans with (length known); [|exact Hk].
      apply NoDup_incl_length; [constructor; assumption|].
      intros x [<-|X]; [apply Hi; left; reflexivity|exact (I1 x X)]. }
    destruct (Nat.eqb_spec (length cs1) k) as [Q|Q]; [lia|].
    destruct (IH (cs1 ++ [contact_create id0 a0])
                 (fun a => if a0 =? a then Some id0 else la a)) as [cs' R].
    + exact Hk.
    + intros x X. apply Hi. right. exact X.
    + rewrite map_app. cbn. assert (P : NoDup (a0 :: map c_addr cs1)) by (constructor; assumption).
      clear -P. induction (map c_addr cs1) as [|y l IH]; cbn; [exact P|].
      inversion P as [|? ? P1 P2]; subst. inversion P2 as [|? ? P3 P4]; subst. constructor.
      * intros F. apply in_app_or in F. destruct F as [F|[F|[]]]; [exact (P3 F)|].
        apply P1. left. symmetry. exact F.
      * apply IH. constructor; [|exact P4]. intros F. apply P1. right. exact F.
    + intros x X. rewrite map_app in X. apply in_app_or in X. destruct X as [X|[<-|[]]].
      * exact (I1 x X).
      * apply Hi. left. reflexivity.
    + intros c X. apply in_app_or in X. destruct X as [X|[<-|[]]]; [|reflexivity].
      apply S1 in X. apply Hf. tauto.
    + intros a id. rewrite in_app_iff. cbn. rewrite S1. cbn [contact_create c_addr].
      rewrite Hl. destruct (N.eqb_spec a0 a) as [G|G].
      * subst a. split; [intros [[_ F]|[F|[]]]; [congruence|injection F as ->; reflexivity]|].
        intros F. injection F as ->. right. left. reflexivity.
      * split; [intros [[F _]|[F|[]]]; [exact F|injection F as _ F; congruence]|].
        intros F. left. split; [exact F|congruence].
    + exists cs'. exact R.
Qed.

Theorem dht_contact_found_partial : forall k b self h known,
  (length known <= k)%nat -> incl (map snd h) known ->
  exists t, run k b self bucket_create h = Some t /\
    (forall p c, stored t p c -> found t c /\ latest h (c_addr c) = Some (c_id c)) /\
    (forall a id, latest h a = Some id -> exists p, stored t p (contact_create id a)).
Proof.
  intros k b self h known Hk Hi.
  destruct (few_leaf k b self known h [] (fun _ => None) Hk Hi) as [cs [R [N1 [_ [N3 N4]]]]].
  - constructor.
  - intros ? [].
  - intros ? [].
  - intros a id. split; [intros []|discriminate].
  - exists (Leaf cs []). split; [exact R|]. split.
    + intros p c H. destruct p as [|i p]; [|destruct H]. cbn in H. destruct H as [H|[]]. split.
      * exists [], cs, []. split; [reflexivity|left; exact H].
      * apply N4. assert (F := N3 c H). destruct c as [ci ca cf]. cbn in F. subst cf. exact H.
    + intros a id L. exists []. cbn. left. apply N4. exact L.
Qed.
Print Assumptions dht_contact_found_partial.

(* Nine nodes whose ids differ in the second byte: the ninth splits the root,
   which puts them by their second byte, while lookups go by the first. *)
Definition wid (i : N) : ident := [1; i; i; i; i; i; i; i].
Definition nine : list (ident * N) := map (fun i => (wid i, i)) [1; 2; 3; 4; 5; 6; 7; 8; 9].
Definition wself : ident := [0; 0; 0; 0; 0; 0; 0; 0].

Theorem dht_contact_found_refuted :
  exists t p c, run KAD_K 8 wself bucket_create nine = Some t /\
    stored t p c /\ ~ found t c /\ latest nine (c_addr c) = Some (c_id c).
Proof.
  remember (run KAD_K 8 wself bucket_create nine) as r eqn:Er.
  assert (A : match r with
              | Some t => (exists q, iter_bucket t 0 (wid 2) =
                                     Some (q, Leaf [contact_create (wid 1) 1] [])) /\
                          stored t [2] (contact_create (wid 2) 2)
              | None => False end).
  { rewrite Er. vm_compute. split; [eexists; reflexivity|]. left. left. reflexivity. }
  destruct r as [t|]; [|destruct A]. destruct A as [[q A] B].
  exists t, [2], (contact_create (wid 2) 2). split; [reflexivity|]. split; [exact B|]. split.
  - intros [p [cs [al [F1 F2]]]]. cbn [contact_create c_id] in F1. rewrite A in F1.
    injection F1 as _ <- <-. destruct F2 as [[F|[]]|[]]. discriminate.
  - reflexivity.
Qed.
Print Assumptions dht_contact_found_refuted.

(* The next word from such a node puts it in a second time, in another
   bucket. *)
Theorem dht_contact_twice_refuted :
  exists t, run KAD_K 8 wself bucket_create (nine ++ [(wid 2, 2)]) = Some t /\
    stored t [2] (contact_create (wid 2) 2) /\ stored t [1] (contact_create (wid 2) 2).
Proof.
  remember (run KAD_K 8 wself bucket_create (nine ++ [(wid 2, 2)])) as r eqn:Er.
  assert (A : match r with
              | Some t => stored t [2] (contact_create (wid 2) 2) /\
                          stored t [1] (contact_create (wid 2) 2)
              | None => False end).
  { rewrite Er. vm_compute. split; left; [left|right; left]; reflexivity. }
  destruct r as [t|]; [|destruct A]. exists t. split; [reflexivity|exact A].
Qed.
Print Assumptions dht_contact_twice_refuted.

Example dht_contact_found_case :
  exists t, run KAD_K 8 wself bucket_create (firstn 8 nine ++ [(wid 12, 3)]) = Some t /\
    stored t [] (contact_create (wid 12) 3) /\ ~ stored t [] (contact_create (wid 3) 3).
Proof.
  eexists. split; [vm_compute; reflexivity|]. split.
  - cbn. tauto.
  - cbn. intuition discriminate.
Qed.

(* -- Can the node answer for every key (C70)? --------------------------------------- *)

(* The full property C70 is: after every history of nodes heard from, the
   routing tree is there (no undefined behaviour on the way) and
   dht_contact_list gives contacts for every key. *)
Lemma add_all_in : forall key cs l x,
  In x (fold_left (fun l c => list_add_sorted l (contact_create (c_id c) (c_addr c)) key) cs l) <->
  In x l \/ exists c, In c cs /\ x = contact_create (c_id c) (c_addr c).
Proof.
  assert (I : forall key c l x, In x (list_add_sorted l c key) <-> x = c \/ In x l).
  { induction l as [|e l IH]; intros x; cbn [list_add_sorted].
    - cbn. intuition.
    - destruct (dist (c_id e) key <? dist (c_id c) key); cbn.
      + intuition.
      + rewrite IH. intuition. }
  induction cs as [|c cs IH]; intros l x; cbn [fold_left].
  - split; [left; assumption|]. intros [H|[c [[] _]]]. exact H.
  - rewrite IH, I. split.
    + intros [[H|H]|[d [D1 D2]]].
      * right. exists c. split; [left; reflexivity|exact H].
      * left. exact H.
      * right. exists d. split; [right; exact D1|exact D2].
    + intros [H|[d [[<-|D1] D2]]].
      * left. right. exact H.
      * left. left. exact D2.
      * right. exists d. split; assumption.
Qed.

(* With no more than k addresses: all nodes heard of, each with its latest id,
   for every key. *)
Theorem dht_contact_list_partial : forall k b self h known key,
  (length known <= k)%nat -> incl (map snd h) known ->
  exists t l, run k b self bucket_create h = Some t /\
    dht_contact_list k t key = Some l /\
    forall a id, In (contact_create id a) l <-> latest h a = Some id.
Proof.
  intros k b self h known key Hk Hi.
  destruct (few_leaf k b self known h [] (fun _ => None) Hk Hi) as [cs [R [N1 [N2 [N3 N4]]]]].
  - constructor.
  - intros ? [].
  - intros ? [].
  - intros a id. split; [intros []|discriminate].
  - exists (Leaf cs []), (add_all key (firstn k cs)).
    split; [exact R|]. split; [reflexivity|]. intros a id.
    assert (L : (length cs <= k)%nat).
    { rewrite <- (map_length c_addr cs). apply Nat.le_trans with (length known); [|exact Hk].
      apply NoDup_incl_length; assumption. }
    rewrite firstn_all2 by exact L. unfold add_all. rewrite add_all_in.
    change (latest h a = Some id) with
      (fold_left (fun r x => if snd x =? a then Some (fst x) else r) h None = Some id).
    rewrite <- N4. split.
    + intros [[]|[c [C1 C2]]]. assert (F := N3 c C1). destruct c as [ci ca cf]. cbn in *.
      injection C2 as -> ->. subst cf. exact C1.
    + intros F. right. exists (contact_create id a). split; [exact F|reflexivity].
Qed.
Print Assumptions dht_contact_list_partial.

(* Nine nodes with the same second byte: all go to one child of the root,
   which is split in turn; then there is no contact among the children of the
   root itself, and the assertion fails for every key that leads to one of
   the 255 others. *)
Definition vid (i : N) : ident := [i; 7; i; i; i; i; i; i].
Definition nine2 : list (ident * N) := map (fun i => (vid i, i)) [1; 2; 3; 4; 5; 6; 7; 8; 9].

Theorem dht_contact_list_refuted :
  exists t, run KAD_K 8 wself bucket_create nine2 = Some t /\
    forall x rest, x < 256 -> x <> 7 -> dht_contact_list KAD_K t (x :: rest) = None.
Proof.
  set (cs := rev (map (fun p => contact_create (fst p) (snd p)) nine2)).
  assert (E : exists n, split_bucket 7 1 cs = Some (Node n) /\
     run KAD_K 8 wself bucket_create nine2 =
     Some (Node (fun i => if i =? 7 then Node n else Leaf (for_child 1 i (rev cs)) []))).
  { eexists. split; [vm_compute; reflexivity|]. cbn - [for_child]. reflexivity. }
  destruct E as [n [_ E]]. exists (Node (fun i => if i =? 7 then Node n
                                                 else Leaf (for_child 1 i (rev cs)) [])).
  split; [exact E|]. intros x rest Hx H7. unfold dht_contact_list. cbn [iter_parent id_byte nth_error].
  destruct (N.eqb_spec x 7) as [Q|Q]; [contradiction|]. cbn [iter_parent].
  assert (Z : forall i, i <> 7 -> for_child 1 i (rev cs) = []).
  { intros i Hi. unfold cs. rewrite rev_involutive. unfold for_child, nine2, vid, id_byte.
    cbn [map fst snd contact_create c_id filter nth_error].
    destruct (N.eqb_spec 7 i); [congruence|reflexivity]. }
  rewrite Z by exact H7. cbn [length Nat.eqb KAD_K].
  assert (F : flat_map (fun i => own_contacts (if i =? 7 then Node n
                 else Leaf (for_child 1 i (rev cs)) [])) masks = []).
  { generalize masks. induction l as [|i l IH]; [reflexivity|]. cbn [flat_map]. rewrite IH.
    destruct (N.eqb_spec i 7) as [J|J]; [reflexivity|]. cbn [own_contacts]. rewrite Z by exact J.
    reflexivity. }
  rewrite F. reflexivity.
Qed.
Print Assumptions dht_contact_list_refuted.

(* Nine nodes that agree in all bytes but the first: the splitting goes on
   past the end of the ids. *)
Definition nine3 : list (ident * N) :=
  map (fun i => ([i; 7; 7; 7; 7; 7; 7; 7], i)) [1; 2; 3; 4; 5; 6; 7; 8; 9].

Theorem dht_split_overrun_refuted :
  run KAD_K 8 wself bucket_create nine3 = None /\
  (forall x, In x nine3 -> length (fst x) = 8%nat) /\ NoDup (map fst nine3).
Proof.
  split; [vm_compute; reflexivity|]. split.
  - intros x H. cbn in H. repeat (destruct H as [<-|H]; [reflexivity|]). destruct H.
  - cbn. repeat (constructor; [cbn; intuition discriminate|]). constructor.
Qed.
Print Assumptions dht_split_overrun_refuted.

Example dht_contact_list_case :
  exists t, run KAD_K 8 wself bucket_create (firstn 3 nine) = Some t /\
    dht_contact_list KAD_K t wself =
    Some (map (fun i => contact_create (wid i) i) [3; 2; 1]).
Proof. eexists. split; vm_compute; reflexivity. Qed.

(* C40: a full bucket away from the node's own id.  When the byte of the
   node's id at this depth is not the one of the bucket, a new contact for a
   full bucket becomes an alternate: the contacts that are there stay, the
   bucket is not split and nothing else changes. *)
Lemma full_kept : forall k b self c t d m p cs al, (p <> [] \/ (0 < d)%nat) ->
  iter_bucket t d (c_id c) = Some (p, Leaf cs al) -> length cs = k ->
  (forall x, In x cs -> c_addr x <> c_addr c) ->
  (exists y, nth_error self (d + length p) = Some y /\ y <> last p m) ->
  exists t' al', update_bucket k b self t d m c = Some t' /\
    iter_bucket t' d (c_id c) = Some (p, Leaf cs al') /\ In c al' /\
    (forall q x, q <> p -> (stored t' q x <-> stored t q x)).
Proof.
  intros k b self c. induction t as [cs0 al0|ch IH]; intros d m p cs al D It L A (y & Y1 & Y2);
    cbn [iter_bucket] in It; cbn [update_bucket].
  - injection It as <- <- <-. cbn [last length] in *. rewrite Nat.add_0_r in Y1.
    unfold update_leaf.
    assert (F : filter (fun x => negb (c_addr x =? c_addr c)) cs0 = cs0).
    { clear - A. induction cs0 as [|x l IHl]; [reflexivity|]. cbn.
      destruct (N.eqb_spec (c_addr x) (c_addr c)) as [E|E]; [elim (A x (or_introl eq_refl) E)|].
      cbn. f_equal. apply IHl. intros z Z. apply A. right. exact Z. }
    rewrite F, L, Nat.eqb_refl. unfold bucket_has_id. destruct d as [|d]; [destruct D as [D|D]; [congruence|lia]|].
    unfold id_byte. rewrite Y1. destruct (N.eqb_spec y m) as [E|E]; [contradiction|].
    destruct (Nat.eqb (length al0) k).
    + exists (Leaf cs0 (tl al0 ++ [c])), (tl al0 ++ [c]). split; [reflexivity|]. split; [reflexivity|].
      split; [apply in_or_app; right; left; reflexivity|]. intros [|i q] x Q; [congruence|]. cbn. tauto.
    + exists (Leaf cs0 (al0 ++ [c])), (al0 ++ [c]). split; [reflexivity|]. split; [reflexivity|].
      split; [apply in_or_app; right; left; reflexivity|]. intros [|i q] x Q; [congruence|]. cbn. tauto.
  - destruct (id_byte (c_id c) d) as [byte|] eqn:B; [|discriminate].
    destruct (iter_bucket (ch byte) (S d) (c_id c)) as [[p1 l1]|] eqn:I1; [|discriminate].
    injection It as <- ->.
    destruct (IH byte (S d) byte p1 cs al (or_intror (Nat.lt_0_succ d)) I1 L A) as (t1 & al1 & U & I2 & I3 & I4).
    { exists y. cbn [length] in Y1. rewrite Nat.add_succ_r in Y1. split; [exact Y1|].
      intros E. apply Y2. rewrite E. clear. destruct p1 as [|z p1]; [reflexivity|].
      cbn [last]. revert z. induction p1 as [|w p1 IHp]; intros z; [reflexivity|]. apply IHp. }
    rewrite U. exists (Node (fun i => if i =? byte then t1 else ch i)), al1. split; [reflexivity|].
    split; [cbn [iter_bucket]; rewrite B, N.eqb_refl, I2; reflexivity|]. split; [exact I3|].
    intros [|i q] x Q; cbn [stored]; [tauto|].
    destruct (N.eqb_spec i byte) as [E|E]; [|tauto]. subst i. apply I4. congruence.
Qed.
Theorem dht_full_bucket_kept : forall k b self t id a p cs al m,
  iter_bucket t 0 id = Some (p ++ [m], Leaf cs al) -> length cs = k ->
  (forall x, In x cs -> c_addr x <> a) ->
  (exists y, nth_error self (S (length p)) = Some y /\ y <> m) ->
  exists t' al', dht_update_bucket k b self t id a = Some t' /\
    iter_bucket t' 0 id = Some (p ++ [m], Leaf cs al') /\ In (contact_create id a) al' /\
    (forall q x, q <> p ++ [m] -> (stored t' q x <-> stored t q x)).
Proof.
  intros k b self t id a p cs al m I L A (y & Y1 & Y2).
  apply (full_kept k b self (contact_create id a) t 0 0 (p ++ [m]) cs al); [left; destruct p; discriminate|exact I|exact L|exact A|].
  exists y. rewrite app_length, Nat.add_1_r. split; [exact Y1|]. rewrite last_last. exact Y2.
Qed.
Print Assumptions dht_full_bucket_kept.

Example dht_full_bucket_case :
  let t := Node (fun i => if i =? 3 then Leaf [contact_create [3; 1] 1; contact_create [3; 2] 2] [] else Leaf [] []) in
  iter_bucket t 0 [3; 9] = Some ([3], Leaf [contact_create [3; 1] 1; contact_create [3; 2] 2] []) /\
  exists t', dht_update_bucket 2 2 [5; 5] t [3; 9] 7 = Some t' /\
    iter_bucket t' 0 [3; 9] = Some ([3], Leaf [contact_create [3; 1] 1; contact_create [3; 2] 2] [contact_create [3; 9] 7]).
Proof. cbv zeta. split; [reflexivity|]. eexists. split; reflexivity. Qed.
