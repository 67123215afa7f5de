(* What a node answers for a key (property C39), and with which lifetime it
   publishes (property C69). *)
From Coq Require Import NArith ZArith List Bool Lia.
From Coq Require Import ZifyBool ZifyNat ZifyN.
From Verif Require Import DhtModel DhtStoreModel.
Import ListNotations.
Open Scope Z_scope.

(* -- Specification --------------------------------------------------------- *)

(* An address is stored for a key at a time with a lifetime; it is deleted;
   the worker sweeps at a time. *)
Inductive event : Type :=
| Store (t : Z) (key : ident) (addr : N) (life : Z)
| Delete (key : ident) (addr : N)
| Sweep (t : Z).

Definition handle (d : dht) (e : event) : dht :=
  match e with
  | Store t k a l => kad_add t d k a l
  | Delete k a => dht_del d k a
  | Sweep t => fst (sweep t d)
  end.

Definition run (d : dht) (h : list event) : dht := fold_left handle h d.

Definition start (addr : N) (expire : Z) : dht := Dht [] addr expire KAD_T_REPL.

(* Until when an address is good for a key: until the latest end of a
   lifetime with which it was stored; not at all after it was deleted, or
   after a sweep found it expired. *)
Definition until1 (key : ident) (addr : N) (u : option Z) (e : event) : option Z :=
  match e with
  | Store t k a l =>
    if id_eqb k key && (a =? addr)%N
    then Some (match u with Some x => Z.max x (t + l) | None => t + l end) else u
  | Delete k a => if id_eqb k key && (a =? addr)%N then None else u
  | Sweep t => match u with Some x => if x <? t then None else u | None => None end
  end.

Definition until (h : list event) (key : ident) (addr : N) : option Z :=
  fold_left (until1 key addr) h None.

(* The address is good for the key at time t. *)
Definition good_at (h : list event) (key : ident) (addr : N) (t : Z) : Prop :=
  exists x, until h key addr = Some x /\ t <= x.

(* -- Proofs ----------------------------------------------------------------- *)

Lemma id_eqb_eq : forall a b, id_eqb a b = true <-> a = b.
Proof.
  induction a as [|x a IH]; intros [|y b]; cbn; split; try discriminate; try reflexivity.
  - intros E. apply andb_true_iff in E. destruct E as [E1 E2].
    apply N.eqb_eq in E1. apply IH in E2. subst. reflexivity.
  - intros E. injection E as <- <-. rewrite N.eqb_refl. cbn. apply IH. reflexivity.
Qed.

Lemma id_eqb_refl : forall a, id_eqb a a = true.
Proof. intros a. apply id_eqb_eq. reflexivity. Qed.

Lemma id_eqb_neq : forall a b, id_eqb a b = false <-> a <> b.
Proof.
  intros a b. split.
  - intros E F. apply id_eqb_eq in F. congruence.
  - intros F. destruct (id_eqb a b) eqn:E; [|reflexivity]. apply id_eqb_eq in E. contradiction.
Qed.

Definition vals_of (l : list entry) (key : ident) : list val :=
  match dht_find_entry l key with Some e => e_vals e | None => [] end.

(* The end of the lifetime of an address in a list of values. *)
Fixpoint exp_of (l : list val) (addr : N) : option Z :=
  match l with
  | [] => None
  | v :: l' => if (v_addr v =? addr)%N then Some (v_exp v) else exp_of l' addr
  end.

Definition addrs (l : list val) : list N := map v_addr l.

Lemma exp_of_none : forall l a, exp_of l a = None <-> ~ In a (addrs l).
Proof.
  induction l as [|v l IH]; intros a; cbn; [tauto|].
  destruct (N.eqb_spec (v_addr v) a) as [E|E].
  - split; [discriminate|]. intros F. exfalso. apply F. left. exact E.
  - rewrite IH. split; [intros F [G|G]; [contradiction|exact (F G)]|tauto].
Qed.

Lemma exp_of_in : forall l a, In a (addrs l) -> exists x, exp_of l a = Some x.
Proof.
  intros l a H. destruct (exp_of l a) as [x|] eqn:E; [exists x; reflexivity|].
  apply exp_of_none in E. contradiction.
Qed.

(* Values: no address twice. *)
Lemma refresh_spec : forall now a x l,
  match refresh now a x l with
  | Some l' => In a (addrs l) /\ addrs l' = addrs l /\
      forall b, exp_of l' b = if (b =? a)%N
        then match exp_of l b with Some y => Some (Z.max y (now + x)) | None => None end
        else exp_of l b
  | None => ~ In a (addrs l)
  end.
Proof.
  induction l as [|v l IH]; cbn [refresh]; [intros []|].
  destruct (N.eqb_spec (v_addr v) a) as [E|E].
  - split; [left; exact E|]. split.
    + destruct (v_exp v <? now + x); cbn; congruence.
    + intros b. cbn [exp_of]. rewrite E.
      destruct (Z.ltb_spec (v_exp v) (now + x)); cbn [v_addr v_exp]; rewrite ?E;
        rewrite N.eqb_sym; destruct (N.eqb_spec b a) as [F|F]; try reflexivity; f_equal; lia.
  - destruct (refresh now a x l) as [l2|].
    + destruct IH as [A [B C]]. split; [right; exact A|]. split; [cbn; unfold addrs in B; rewrite B; reflexivity|].
      intros b. cbn [exp_of]. destruct (N.eqb_spec (v_addr v) b) as [F|F]; [|exact (C b)].
      subst b. destruct (N.eqb_spec (v_addr v) a); [contradiction|reflexivity].
    + intros [F|F]; [contradiction|exact (IH F)].
Qed.

Lemma del_vals_spec : forall a l n r n',
  del_vals a l n = (r, n') ->
  (forall x, In x (addrs r) <-> In x (addrs l) /\ x <> a) /\
  (forall b, exp_of r b = if (b =? a)%N then None else exp_of l b) /\
  (NoDup (addrs l) -> NoDup (addrs r)).
Proof.
  induction l as [|v l IH]; intros n r n' E; cbn [del_vals] in E.
  - injection E as <- <-. split; [cbn; tauto|]. split; [|auto].
    intros b. destruct (b =? a)%N; reflexivity.
  - destruct (N.eqb_spec (v_addr v) a) as [F|F].
    + destruct (IH _ _ _ E) as [A [B C]]. split; [|split].
      * intros x. rewrite A. cbn. split; [tauto|]. intros [[G|G] H]; [congruence|tauto].
      * intros b. rewrite B. cbn [exp_of]. rewrite F.
        destruct (N.eqb_spec b a) as [G|G]; [reflexivity|].
        destruct (N.eqb_spec a b); [congruence|reflexivity].
      * intros G. inversion G; subst. auto.
    + destruct (del_vals a l n) as [r1 n1] eqn:E1. injection E as <- <-.
      destruct (IH _ _ _ E1) as [A [B C]]. split; [|split].
      * intros x. cbn. fold (addrs r1) (addrs l). rewrite A. split; [|tauto].
        intros [G|G]; [|tauto]. split; [left; exact G|congruence].
      * intros b. cbn [exp_of]. rewrite B.
        destruct (N.eqb_spec (v_addr v) b) as [G|G]; [|reflexivity].
        subst b. destruct (N.eqb_spec (v_addr v) a); [contradiction|reflexivity].
      * intros G. inversion G as [|? ? G1 G2]; subst. cbn. constructor; [|auto].
        fold (addrs r1). rewrite A. tauto.
Qed.

Lemma sweep_vals_spec : forall now rp l x r p y,
  NoDup (addrs l) ->
  sweep_vals now rp x l = (r, p, y) ->
  NoDup (addrs r) /\ incl (addrs r) (addrs l) /\
  (forall b, exp_of r b = match exp_of l b with
                          | Some z => if z <? now then None else Some z
                          | None => None end) /\
  (forall a z, In (a, z) p -> z = now /\ In a (addrs r)) /\
  (y = x \/ y = now) /\
  (p = [] -> y = x) /\
  (length r <= length l)%nat.
Proof.
  induction l as [|v l IH]; intros x r p y Hn E; cbn [sweep_vals] in E.
  - injection E as <- <- <-. split; [constructor|]. split; [intros ? []|].
    split; [reflexivity|]. split; [intros ? ? []|]. auto.
  - cbn in Hn. inversion Hn as [|? ? N1 N2]; subst.
    destruct (Z.ltb_spec (v_exp v) now) as [L|L].
    + destruct (IH _ _ _ _ N2 E) as [A [B [C [D [F [G H]]]]]].
      split; [exact A|]. split; [intros z Hz; right; exact (B z Hz)|].
      split; [|split; [exact D|split; [exact F|split; [exact G|cbn; lia]]]].
      intros b. cbn [exp_of]. destruct (N.eqb_spec (v_addr v) b) as [Q|Q]; [|exact (C b)].
      destruct (Z.ltb_spec (v_exp v) now); [|lia].
      apply exp_of_none. intros K. apply B in K. subst b. contradiction.
    + destruct (v_rep v <? now).
      * destruct (sweep_vals now rp now l) as [[r1 p1] y1] eqn:E1. injection E as <- <- <-.
        destruct (IH _ _ _ _ N2 E1) as [A [B [C [D [F [G H]]]]]].
        split; [cbn; constructor; [intros K; apply N1, B, K|exact A]|].
        split; [intros z [Hz|Hz]; [left; exact Hz|right; exact (B z Hz)]|].
        split; [|split; [|split; [|split; [discriminate|cbn; lia]]]].
        -- intros b. cbn [exp_of v_addr v_exp].
           destruct (N.eqb_spec (v_addr v) b) as [Q|Q]; [|exact (C b)].
           destruct (Z.ltb_spec (v_exp v) now); [lia|reflexivity].
        -- intros a z [K|K].
           ++ injection K as <- <-. split; [reflexivity|left; reflexivity].
           ++ destruct (D a z K). split; [assumption|right; assumption].
        -- right. destruct F; assumption.
      * destruct (sweep_vals now rp x l) as [[r1 p1] y1] eqn:E1. injection E as <- <- <-.
        destruct (IH _ _ _ _ N2 E1) as [A [B [C [D [F [G H]]]]]].
        split; [cbn; constructor; [intros K; apply N1, B, K|exact A]|].
        split; [intros z [Hz|Hz]; [left; exact Hz|right; exact (B z Hz)]|].
        split; [|split; [|split; [exact F|split; [exact G|cbn; lia]]]].
        -- intros b. cbn [exp_of].
           destruct (N.eqb_spec (v_addr v) b) as [Q|Q]; [|exact (C b)].
           destruct (Z.ltb_spec (v_exp v) now); [lia|reflexivity].
        -- intros a z K. destruct (D a z K). split; [assumption|right; assumption].
Qed.

(* Entries: no key twice, no address twice, and n_vals counts at least the
   values. *)
Definition keys (l : list entry) : list ident := map e_key l.

Definition wf (l : list entry) : Prop :=
  NoDup (keys l) /\
  forall e, In e l -> NoDup (addrs (e_vals e)) /\
    (N.of_nat (length (e_vals e)) <= e_n e)%N /\ (0 < e_n e)%N.

Lemma find_in : forall l k e, dht_find_entry l k = Some e -> In e l /\ e_key e = k.
Proof.
  induction l as [|f l IH]; intros k e E; cbn in E; [discriminate|].
  destruct (id_eqb k (e_key f)) eqn:K.
  - injection E as <-. apply id_eqb_eq in K. split; [left; reflexivity|congruence].
  - destruct (IH _ _ E). split; [right|]; assumption.
Qed.

Lemma find_none : forall l k, dht_find_entry l k = None <-> ~ In k (keys l).
Proof.
  induction l as [|f l IH]; intros k; cbn; [tauto|].
  destruct (id_eqb k (e_key f)) eqn:K.
  - apply id_eqb_eq in K. split; [discriminate|]. intros F. exfalso. apply F. left. congruence.
  - apply id_eqb_neq in K. rewrite IH. split; [intros F [G|G]; [congruence|exact (F G)]|tauto].
Qed.

Lemma find_change : forall l k f,
  NoDup (keys l) ->
  (forall e e', f e = Some e' -> e_key e' = e_key e) ->
  (forall q, dht_find_entry (change_entry l k f) q =
             if id_eqb q k then match dht_find_entry l k with Some e => f e | None => None end
             else dht_find_entry l q) /\
  incl (keys (change_entry l k f)) (keys l) /\ NoDup (keys (change_entry l k f)).
Proof.
  induction l as [|e l IH]; intros k f Hn Hf; cbn [change_entry].
  - split; [|split; [intros ? []|constructor]]. intros q. cbn. destruct (id_eqb q k); reflexivity.
  - cbn in Hn. inversion Hn as [|? ? N1 N2]; subst.
    destruct (id_eqb k (e_key e)) eqn:K.
    + apply id_eqb_eq in K. subst k. destruct (f e) as [e'|] eqn:F.
      * assert (Ek := Hf _ _ F). split; [|split].
        -- intros q. cbn. rewrite Ek, id_eqb_refl.
           destruct (id_eqb q (e_key e)); [congruence|reflexivity].
        -- cbn. rewrite Ek. intros x Hx. exact Hx.
        -- cbn. rewrite Ek. constructor; assumption.
      * split; [|split; [intros x Hx; right; exact Hx|exact N2]].
        intros q. cbn. rewrite id_eqb_refl. destruct (id_eqb q (e_key e)) eqn:Q; [|reflexivity].
        apply id_eqb_eq in Q. subst q. rewrite F. apply find_none. exact N1.
    + destruct (IH k f N2 Hf) as [A [B C]]. split; [|split].
      * intros q. cbn. rewrite K, A. destruct (id_eqb q (e_key e)) eqn:Q.
        -- apply id_eqb_eq in Q. subst q. destruct (id_eqb (e_key e) k) eqn:R; [|reflexivity].
           apply id_eqb_eq in R. subst k. rewrite id_eqb_refl in K. discriminate.
        -- reflexivity.
      * cbn. intros x [Hx|Hx]; [left; exact Hx|right; apply B, Hx].
      * cbn. constructor; [intros F; apply N1, B, F|exact C].
Qed.

Lemma in_change : forall l k f e', In e' (change_entry l k f) ->
  In e' l \/ exists e, In e l /\ f e = Some e'.
Proof.
  induction l as [|e l IH]; intros k f e' H; cbn [change_entry] in H; [destruct H|].
  destruct (id_eqb k (e_key e)).
  - destruct (f e) as [e2|] eqn:F.
    + destruct H as [<-|H]; [right; exists e; split; [left; reflexivity|exact F]|].
      left. right. exact H.
    + left. right. exact H.
  - destruct H as [<-|H]; [left; left; reflexivity|].
    destruct (IH _ _ _ H) as [A|[q [A B]]]; [left; right; exact A|].
    right. exists q. split; [right; exact A|exact B].
Qed.

Definition exp_d (d : dht) (key : ident) (addr : N) : option Z :=
  exp_of (vals_of (d_entries d) key) addr.

Lemma add_addr_spec : forall now e a x,
  NoDup (addrs (e_vals e)) ->
  (N.of_nat (length (e_vals e)) <= e_n e)%N ->
  let e' := dht_entry_add_addr now e a x in
  e_key e' = e_key e /\ NoDup (addrs (e_vals e')) /\
  (N.of_nat (length (e_vals e')) <= e_n e')%N /\ (e_n e <= e_n e')%N /\
  (e_vals e = [] -> (0 < e_n e')%N) /\
  forall b, exp_of (e_vals e') b =
    if (b =? a)%N then Some (match exp_of (e_vals e) a with
                             | Some y => Z.max y (now + x) | None => now + x end)
    else exp_of (e_vals e) b.
Proof.
  intros now e a x Hn Hc. cbv zeta. unfold dht_entry_add_addr.
  assert (R := refresh_spec now a x (e_vals e)).
  destruct (refresh now a x (e_vals e)) as [l|].
  - destruct R as [A [B C]]. cbn [e_key e_vals e_n].
    split; [reflexivity|]. split; [rewrite B; exact Hn|].
    assert (L : length l = length (e_vals e)).
    { rewrite <- (map_length v_addr l), <- (map_length v_addr (e_vals e)).
      unfold addrs in B. rewrite B. reflexivity. }
    split; [lia|]. split; [lia|]. split.
    + intros Z. rewrite Z in A. destruct A.
    + intros b. rewrite C. destruct (N.eqb_spec b a) as [F|F]; [|reflexivity]. subst b.
      destruct (exp_of_in _ _ A) as [y Y]. rewrite Y. reflexivity.
  - cbn [e_key e_vals e_n]. split; [reflexivity|]. split; [cbn; constructor; assumption|].
    split; [cbn [length]; lia|]. split; [lia|]. split; [intros _; lia|].
    intros b. cbn. rewrite N.eqb_sym. destruct (N.eqb_spec b a) as [F|F]; [|reflexivity].
    subst b. apply exp_of_none in R. rewrite R. reflexivity.
Qed.

Lemma handle_spec : forall d ev,
  wf (d_entries d) ->
  wf (d_entries (handle d ev)) /\ d_addr (handle d ev) = d_addr d /\
  forall key addr, exp_d (handle d ev) key addr = until1 key addr (exp_d d key addr) ev.
Proof.
  intros d ev [Hk He]. destruct ev as [t k a x|k a|t]; cbn [handle].
  - unfold kad_add. destruct (dht_find_entry (d_entries d) k) as [e0|] eqn:F.
    + set (f := fun e => Some (dht_entry_add_addr t e a x)).
      destruct (find_change (d_entries d) k f Hk) as [A [B C]].
      { intros e e' E. injection E as <-. unfold dht_entry_add_addr.
        destruct (refresh t a x (e_vals e)); reflexivity. }
      split; [|split; [reflexivity|]].
      * split; [exact C|]. intros e H. apply in_change in H.
        destruct H as [H|[e1 [H E]]]; [exact (He e H)|].
        injection E as <-. destruct (He e1 H) as [H1 [H2 H3]].
        destruct (add_addr_spec t e1 a x H1 H2) as [_ [Q1 [Q2 [Q3 _]]]].
        split; [exact Q1|]. split; [exact Q2|lia].
      * intros key addr. unfold exp_d, vals_of. cbn [set_entries d_entries]. rewrite A.
        cbn [until1]. destruct (id_eqb key k) eqn:K.
        -- apply id_eqb_eq in K. subst key. rewrite id_eqb_refl, F. cbn [andb f].
           destruct (find_in _ _ _ F) as [I1 I2]. destruct (He e0 I1) as [H1 [H2 _]].
           destruct (add_addr_spec t e0 a x H1 H2) as [_ [_ [_ [_ [_ Q]]]]].
           cbn. rewrite Q, N.eqb_sym. destruct (N.eqb_spec a addr) as [G|G]; [|reflexivity].
           subst addr. reflexivity.
        -- destruct (id_eqb k key) eqn:K2; [|reflexivity].
           apply id_eqb_eq in K2. subst key. rewrite id_eqb_refl in K. discriminate.
    + assert (N0 : NoDup (addrs (e_vals (Entry k [] 0)))) by constructor.
      assert (L0 : (N.of_nat (length (e_vals (Entry k [] 0))) <= e_n (Entry k [] 0))%N) by (cbn; lia).
      destruct (add_addr_spec t (Entry k [] 0) a x N0 L0) as [Q0 [Q1 [Q2 [Q3 [Q4 Q5]]]]].
      cbn [e_key] in Q0.
      split; [|split; [reflexivity|]].
      * cbn [set_entries d_entries]. split.
        -- cbn [keys map]. rewrite Q0. constructor; [apply find_none; exact F|exact Hk].
        -- intros e [<-|H]; [|exact (He e H)]. split; [exact Q1|]. split; [exact Q2|].
           apply Q4. reflexivity.
      * intros key addr. unfold exp_d, vals_of. cbn [set_entries d_entries dht_find_entry].
        rewrite Q0. cbn [until1]. destruct (id_eqb key k) eqn:K.
        -- apply id_eqb_eq in K. subst key. rewrite id_eqb_refl, F. cbn [andb].
           rewrite Q5. cbn. rewrite N.eqb_sym. destruct (N.eqb_spec a addr) as [G|G]; reflexivity.
        -- destruct (id_eqb k key) eqn:K2; [|reflexivity].
           apply id_eqb_eq in K2. subst key. rewrite id_eqb_refl in K. discriminate.
  - unfold dht_del. destruct (dht_find_entry (d_entries d) k) as [e0|] eqn:F.
    + set (f := fun e => dht_entry_del_addr e a).
      destruct (find_change (d_entries d) k f Hk) as [A [B C]].
      { intros e e' E. unfold f, dht_entry_del_addr in E.
        destruct (del_vals a (e_vals e) (e_n e)) as [r n]. destruct (n =? 0)%N; [discriminate|].
        injection E as <-. reflexivity. }
      assert (Dn : forall a l n r n', NoDup (addrs l) -> (N.of_nat (length l) <= n)%N ->
                 del_vals a l n = (r, n') -> (N.of_nat (length r) <= n')%N).
      { clear. intros a. induction l as [|v l IH]; intros n r n' Hn L E; cbn [del_vals] in E.
        - injection E as <- <-. cbn. lia.
        - cbn in Hn. inversion Hn as [|? ? N1 N2]; subst. cbn [length] in L.
          destruct (N.eqb_spec (v_addr v) a) as [G|G].
          + apply (IH _ _ _ N2) in E; [exact E|]. unfold dec_size.
            destruct (N.eqb_spec n 0); lia.
          + destruct (del_vals a l n) as [r1 n1] eqn:E1. injection E as <- <-. cbn [length].
            assert (M : forall l n r n', ~ In a (addrs l) -> del_vals a l n = (r, n') -> n' = n).
            { clear. induction l as [|v l IH]; intros n r n' H E; cbn [del_vals] in E.
              - injection E as <- <-. reflexivity.
              - destruct (N.eqb_spec (v_addr v) a) as [G|G]; [exfalso; apply H; left; exact G|].
                destruct (del_vals a l n) as [r1 n1] eqn:E1. injection E as <- <-.
                apply (IH _ _ _) in E1; [exact E1|]. intros K. apply H. right. exact K. }
            assert (Le : forall l n r n', del_vals a l n = (r, n') -> (length r <= length l)%nat).
            { clear. induction l as [|v l IH]; intros n r n' E; cbn [del_vals] in E.
              - injection E as <- <-. apply le_n.
              - destruct (v_addr v =? a)%N.
                + apply IH in E. cbn. lia.
                + destruct (del_vals a l n) as [r1 n1] eqn:E1. injection E as <- <-.
                  apply IH in E1. cbn. lia. }
            destruct (in_dec N.eq_dec a (addrs l)) as [J|J].
            * (* a is in l: one less on both sides *)
              assert (IH2 : (N.of_nat (length r1) <= dec_size n)%N \/ True) by (right; exact I).
              clear IH2.
              assert (X : forall l n r n', NoDup (addrs l) -> In a (addrs l) ->
                         del_vals a l n = (r, n') -> n' = dec_size n /\ S (length r) = length l).
              { clear -M Le. induction l as [|v l IH]; intros n r n' Hn H E; [destruct H|].
                cbn [del_vals] in E. cbn in Hn. inversion Hn as [|? ? N1 N2]; subst.
                destruct (N.eqb_spec (v_addr v) a) as [G|G].
                - subst a. split; [exact (M _ _ _ _ N1 E)|]. cbn. f_equal.
                  clear -N1 E. revert n r n' N1 E. generalize (dec_size) as g.
                  intros g n. generalize (g n) as m. clear.
                  induction l as [|w l IH]; intros m r n' N1 E; cbn [del_vals] in E.
                  + injection E as <- <-. reflexivity.
                  + destruct (N.eqb_spec (v_addr w) (v_addr v)) as [G|G];
                      [exfalso; apply N1; left; exact G|].
                    destruct (del_vals (v_addr v) l m) as [r1 n1] eqn:E1. injection E as <- <-.
                    cbn. f_equal. apply (IH _ _ _) in E1; [exact E1|].
                    intros K. apply N1. right. exact K.
                - destruct H as [H|H]; [contradiction|].
                  destruct (del_vals a l n) as [r1 n1] eqn:E1. injection E as <- <-.
                  destruct (IH _ _ _ N2 H E1) as [X1 X2]. split; [exact X1|]. cbn. congruence. }
              destruct (X _ _ _ _ N2 J E1) as [X1 X2]. subst n1. unfold dec_size.
              destruct (N.eqb_spec n 0); lia.
            * assert (n1 = n) by exact (M _ _ _ _ J E1). subst n1.
              assert (Y := Le _ _ _ _ E1). lia. }
      split; [|split; [reflexivity|]].
      * split; [exact C|]. intros e H. apply in_change in H.
        destruct H as [H|[e1 [H E]]]; [exact (He e H)|].
        destruct (He e1 H) as [H1 [H2 H3]]. unfold f, dht_entry_del_addr in E.
        destruct (del_vals a (e_vals e1) (e_n e1)) as [r n] eqn:Ed.
        destruct (N.eqb_spec n 0) as [Z|Z]; [discriminate|]. injection E as <-.
        cbn [e_vals e_n]. split; [apply (del_vals_spec _ _ _ _ _ Ed); exact H1|].
        split; [exact (Dn _ _ _ _ _ H1 H2 Ed)|lia].
      * intros key addr. unfold exp_d, vals_of. cbn [set_entries d_entries]. rewrite A.
        cbn [until1]. destruct (id_eqb key k) eqn:K.
        -- apply id_eqb_eq in K. subst key. rewrite id_eqb_refl, F. cbn [andb].
           destruct (find_in _ _ _ F) as [I1 I2]. destruct (He e0 I1) as [H1 [H2 _]].
           unfold f, dht_entry_del_addr.
           destruct (del_vals a (e_vals e0) (e_n e0)) as [r n] eqn:Ed.
           destruct (del_vals_spec _ _ _ _ _ Ed) as [_ [Q _]].
           assert (Dr := Dn _ _ _ _ _ H1 H2 Ed).
           destruct (N.eqb_spec n 0) as [Z|Z].
           ++ assert (r = []) by (destruct r; [reflexivity|cbn in Dr; lia]). subst r.
              specialize (Q addr). cbn in Q |- *. rewrite N.eqb_sym.
              destruct (addr =? a)%N; [reflexivity|]. exact Q.
           ++ cbn [e_vals]. rewrite Q, N.eqb_sym. reflexivity.
        -- destruct (id_eqb k key) eqn:K2; [|reflexivity].
           apply id_eqb_eq in K2. subst key. rewrite id_eqb_refl in K. discriminate.
    + split; [split; assumption|]. split; [reflexivity|]. intros key addr. cbn [until1].
      destruct (id_eqb k key) eqn:K; [|reflexivity]. apply id_eqb_eq in K. subst key. cbn [andb].
      unfold exp_d, vals_of. rewrite F. destruct (a =? addr)%N; reflexivity.
  - unfold sweep.
    destruct (sweep_entries t (d_replic d) (d_expire d) (d_entries d)) as [[l p] x] eqn:E.
    cbn [fst d_entries d_addr].
    assert (G : wf l /\ keys l = keys (d_entries d) /\
       forall key addr, exp_of (vals_of l key) addr =
         match exp_of (vals_of (d_entries d) key) addr with
         | Some z => if z <? t then None else Some z | None => None end).
    { revert l p x E. generalize (d_expire d) as x0. generalize (d_entries d), Hk, He.
      clear. induction l as [|e l IH]; intros Hk He x0 r p x E; cbn [sweep_entries] in E.
      - injection E as <- <- <-. split; [split; [constructor|intros ? []]|].
        split; [reflexivity|]. reflexivity.
      - destruct (sweep_vals t (d_replic d) x0 (e_vals e)) as [[vs p1] x1] eqn:E1.
        destruct (sweep_entries t (d_replic d) x1 l) as [[r2 q] y] eqn:E2.
        injection E as <- <- <-. cbn in Hk. inversion Hk as [|? ? N1 N2]; subst.
        destruct (IH N2 (fun e H => He e (or_intror H)) _ _ _ _ E2) as [[A1 A2] [B C]].
        destruct (He e (or_introl eq_refl)) as [H1 [H2 H3]].
        destruct (sweep_vals_spec _ _ _ _ _ _ _ H1 E1) as [S1 [S2 [S3 [_ [_ [_ S4]]]]]].
        split; [|split].
        + split.
          * cbn. unfold keys in B. rewrite B. constructor; assumption.
          * intros f [<-|H]; [|exact (A2 f H)]. cbn [e_vals e_n].
            split; [exact S1|]. split; [lia|exact H3].
        + cbn. unfold keys in B. rewrite B. reflexivity.
        + intros key addr. unfold vals_of. cbn [dht_find_entry e_key].
          destruct (id_eqb key (e_key e)); [exact (S3 addr)|exact (C key addr)]. }
    destruct G as [G1 [G2 G3]]. split; [exact G1|]. split; [reflexivity|].
    intros key addr. unfold exp_d. cbn [d_entries until1]. rewrite G3.
    destruct (exp_of (vals_of (d_entries d) key) addr); reflexivity.
Qed.

Lemma run_spec : forall h d u,
  wf (d_entries d) -> (forall key addr, exp_d d key addr = u key addr) ->
  wf (d_entries (run d h)) /\ d_addr (run d h) = d_addr d /\
  forall key addr, exp_d (run d h) key addr = fold_left (until1 key addr) h (u key addr).
Proof.
  induction h as [|e h IH]; intros d u Hw Hu.
  - split; [exact Hw|]. split; [reflexivity|exact Hu].
  - destruct (handle_spec d e Hw) as [A [B C]].
    destruct (IH (handle d e) (fun key addr => until1 key addr (u key addr) e) A) as [D [E F]].
    + intros key addr. rewrite C, Hu. reflexivity.
    + split; [exact D|]. split; [cbn; rewrite <- B; exact E|exact F].
Qed.

Lemma run_start : forall h self x,
  wf (d_entries (run (start self x) h)) /\ d_addr (run (start self x) h) = self /\
  forall key addr, exp_d (run (start self x) h) key addr = until h key addr.
Proof.
  intros h self x. apply (run_spec h (start self x) (fun _ _ => None)).
  - split; [constructor|intros ? []].
  - reflexivity.
Qed.

(* -- Theorems ------------------------------------------------------------------ *)

(* The full property C39 is: after every history, at every time t at or after
   it, the answer for a key is an address that is good at t, or there is none
   and then no address is good; and a key without a good address has no
   entry.  It is refuted below.  What holds: *)

(* An address in the answer was stored for that key, was not deleted since,
   and was not expired at any sweep since; if there is no address in the
   answer, no address is good.  After a sweep at t the answer is good at t. *)
Theorem dht_answer_partial : forall h self x key,
  let d := run (start self x) h in
  match dht_retrieve d key with
  | Some (Address a) => exists y, until h key a = Some y
  | Some Junk | None => forall a, until h key a = None
  end /\
  forall t, match dht_retrieve (handle d (Sweep t)) key with
            | Some (Address a) => good_at h key a t
            | Some Junk | None => forall a, ~ good_at h key a t
            end.
Proof.
  assert (G : forall h self x key,
    match dht_retrieve (run (start self x) h) key with
    | Some (Address a) => exists y, until h key a = Some y
    | Some Junk | None => forall a, until h key a = None
    end).
  { intros h self x key. destruct (run_start h self x) as [[W1 W2] [_ E]].
    unfold dht_retrieve. unfold exp_d, vals_of in E. specialize (E key).
    destruct (dht_find_entry (d_entries (run (start self x) h)) key) as [e|] eqn:F.
    - destruct (find_in _ _ _ F) as [I1 _]. destruct (W2 e I1) as [_ [_ P]].
      destruct (N.eqb_spec (N.min 1 (e_n e)) 0) as [Z|Z]; [lia|].
      destruct (e_vals e) as [|v l].
      + intros a. rewrite <- E. reflexivity.
      + exists (v_exp v). rewrite <- E. cbn. rewrite N.eqb_refl. reflexivity.
    - intros a. rewrite <- E. reflexivity. }
  intros h self x key d. split; [apply G|]. intros t.
  assert (R : handle d (Sweep t) = run (start self x) (h ++ [Sweep t])).
  { unfold run. rewrite fold_left_app. reflexivity. }
  rewrite R. assert (H := G (h ++ [Sweep t]) self x key).
  assert (U : forall a, until (h ++ [Sweep t]) key a =
    match until h key a with Some y => if y <? t then None else Some y | None => None end).
  { intros a. unfold until. rewrite fold_left_app. cbn [fold_left until1].
    destruct (fold_left (until1 key a) h None); reflexivity. }
  destruct (dht_retrieve (run (start self x) (h ++ [Sweep t])) key) as [[a|]|].
  - destruct H as [y Y]. rewrite U in Y. destruct (until h key a) as [z|] eqn:Z; [|discriminate].
    destruct (Z.ltb_spec z t); [discriminate|]. exists z. split; [exact Z|assumption].
  - intros a [z [Z L]]. specialize (H a). rewrite U, Z in H.
    destruct (Z.ltb_spec z t); [lia|discriminate].
  - intros a [z [Z L]]. specialize (H a). rewrite U, Z in H.
    destruct (Z.ltb_spec z t); [lia|discriminate].
Qed.
Print Assumptions dht_answer_partial.

(* The same for the node itself when it asks its own store: another node's
   address that is good at the last sweep if there is one. *)
Theorem dht_query_local_partial : forall h self x key,
  let d := run (start self x) h in
  match dht_query_local d key with
  | Got a => (a = 0%N /\ forall b, b <> self -> b <> 0%N -> until h key b = None) \/
             (a <> self /\ exists y, until h key a = Some y)
  | Abort => forall b, until h key b = None
  end.
Proof.
  intros h self x key d. subst d. destruct (run_start h self x) as [[W1 W2] [A E]].
  unfold dht_query_local. unfold exp_d, vals_of in E. specialize (E key).
  destruct (dht_find_entry (d_entries (run (start self x) h)) key) as [e|] eqn:F.
  - unfold dht_entry_get_addr. rewrite A.
    assert (O : forall l, (exists y, other_addr self l <> self /\ exp_of l (other_addr self l) = Some y) \/
                          (other_addr self l = 0%N /\ forall b, b <> self -> exp_of l b = None)).
    { clear. induction l as [|v l IH]; cbn [other_addr exp_of].
      - right. split; [reflexivity|]. intros b _. reflexivity.
      - destruct (N.eqb_spec (v_addr v) self) as [G|G].
        + destruct IH as [[y [I1 I2]]|[I1 I2]].
          * left. exists y. split; [exact I1|].
            destruct (N.eqb_spec (v_addr v) (other_addr self l)); [congruence|exact I2].
          * right. split; [exact I1|]. intros b Hb.
            destruct (N.eqb_spec (v_addr v) b); [congruence|]. apply I2, Hb.
        + left. exists (v_exp v). split; [exact G|]. rewrite N.eqb_refl. reflexivity. }
    destruct (e_vals e) as [|v l] eqn:V.
    + intros b. rewrite <- E. reflexivity.
    + destruct (O (v :: l)) as [[y [O1 O2]]|[O1 O2]].
      * right. split; [exact O1|]. exists y. rewrite <- E. exact O2.
      * left. split; [exact O1|]. intros b Hb _. rewrite <- E. apply O2, Hb.
  - left. split; [reflexivity|]. intros b _ _. rewrite <- E. reflexivity.
Qed.
Print Assumptions dht_query_local_partial.

(* As long as no sweep finds an address expired the books are right: a key
   without a good address has no entry, the answer is never junk and the
   node's own query never aborts. *)
Fixpoint counted (l : list entry) : Prop :=
  match l with
  | [] => True
  | e :: l' => e_n e = N.of_nat (length (e_vals e)) /\ counted l'
  end.

Definition nothing_expires (h : list event) : Prop :=
  forall h1 t h2, h = h1 ++ Sweep t :: h2 ->
  forall key a x, until h1 key a = Some x -> t <= x.

Lemma counted_in : forall l, counted l <-> forall e, In e l -> e_n e = N.of_nat (length (e_vals e)).
Proof.
  induction l as [|e l IH]; cbn.
  - split; [intros _ ? []|auto].
  - rewrite IH. split.
    + intros [A B] f [<-|F]; [exact A|exact (B f F)].
    + intros A. split; [apply A; left; reflexivity|]. intros f F. apply A. right. exact F.
Qed.

Lemma del_counted : forall a l n r n', NoDup (addrs l) ->
  n = N.of_nat (length l) -> del_vals a l n = (r, n') -> n' = N.of_nat (length r).
Proof.
  intros a. assert (G : forall l k r n', NoDup (addrs l) ->
    del_vals a l (N.of_nat (length l) + k)%N = (r, n') -> n' = (N.of_nat (length r) + k)%N).
  { induction l as [|v l IH]; intros k r n' Hn E; cbn [del_vals] in E.
    - injection E as <- <-. reflexivity.
    - cbn in Hn. inversion Hn as [|? ? N1 N2]; subst. cbn [length] in E.
      destruct (v_addr v =? a)%N.
      + replace (dec_size (N.of_nat (S (length l)) + k))%N with (N.of_nat (length l) + k)%N in E
          by (unfold dec_size; destruct (N.eqb_spec (N.of_nat (S (length l)) + k) 0); lia).
        exact (IH _ _ _ N2 E).
      + replace (N.of_nat (S (length l)) + k)%N with (N.of_nat (length l) + (k + 1))%N in E by lia.
        destruct (del_vals a l (N.of_nat (length l) + (k + 1))%N) as [r1 n1] eqn:E1.
        injection E as <- <-. apply (IH _ _ _ N2) in E1. cbn [length]. lia. }
  intros l n r n' Hn -> E. replace (N.of_nat (length l)) with (N.of_nat (length l) + 0)%N in E by lia.
  apply G in E; [lia|exact Hn].
Qed.

Lemma handle_counted : forall d ev,
  wf (d_entries d) -> counted (d_entries d) ->
  (forall t, ev = Sweep t -> forall key a x, exp_d d key a = Some x -> t <= x) ->
  counted (d_entries (handle d ev)).
Proof.
  intros d ev [Hk He] Hc Hs. rewrite counted_in in *. destruct ev as [t k a x|k a|t]; cbn [handle].
  - assert (Q : forall e, e_n e = N.of_nat (length (e_vals e)) ->
        e_n (dht_entry_add_addr t e a x) = N.of_nat (length (e_vals (dht_entry_add_addr t e a x)))).
    { intros e H. unfold dht_entry_add_addr. assert (R := refresh_spec t a x (e_vals e)).
      destruct (refresh t a x (e_vals e)) as [l|].
      - destruct R as [_ [B _]]. cbn [e_n e_vals].
        rewrite <- (map_length v_addr l). unfold addrs in B. rewrite B, map_length. exact H.
      - cbn [e_n e_vals length]. lia. }
    unfold kad_add. destruct (dht_find_entry (d_entries d) k) as [e0|].
    + cbn [set_entries d_entries]. intros e H. apply in_change in H.
      destruct H as [H|[e1 [H E]]]; [exact (Hc e H)|]. injection E as <-. exact (Q _ (Hc _ H)).
    + cbn [set_entries d_entries]. intros e [<-|H]; [|exact (Hc e H)].
      apply Q. reflexivity.
  - unfold dht_del. destruct (dht_find_entry (d_entries d) k) as [e0|]; [|exact Hc].
    cbn [set_entries d_entries]. intros e H. apply in_change in H.
    destruct H as [H|[e1 [H E]]]; [exact (Hc e H)|].
    unfold dht_entry_del_addr in E.
    destruct (del_vals a (e_vals e1) (e_n e1)) as [r n] eqn:Ed.
    destruct (N.eqb_spec n 0) as [Z|Z]; [discriminate|]. injection E as <-. cbn [e_n e_vals].
    exact (del_counted _ _ _ _ _ (proj1 (He e1 H)) (Hc e1 H) Ed).
  - unfold sweep.
    destruct (sweep_entries t (d_replic d) (d_expire d) (d_entries d)) as [[l p] x] eqn:E.
    cbn [fst d_entries].
    assert (K : forall e v, In e (d_entries d) -> In v (e_vals e) -> t <= v_exp v).
    { intros e v Hi Hv. apply (Hs t eq_refl (e_key e) (v_addr v)).
      unfold exp_d, vals_of.
      assert (F : dht_find_entry (d_entries d) (e_key e) = Some e).
      { clear -Hk Hi. induction (d_entries d) as [|f l IH]; [destruct Hi|].
        cbn in Hk. inversion Hk as [|? ? N1 N2]; subst. cbn.
        destruct Hi as [->|Hi]; [rewrite id_eqb_refl; reflexivity|].
        destruct (id_eqb (e_key e) (e_key f)) eqn:Q; [|exact (IH N2 Hi)].
        apply id_eqb_eq in Q. exfalso. apply N1. rewrite <- Q. apply in_map. exact Hi. }
      rewrite F. destruct (He e Hi) as [Hn _].
      clear -Hn Hv. induction (e_vals e) as [|w l IH]; [destruct Hv|].
      cbn in Hn. inversion Hn as [|? ? N1 N2]; subst. cbn.
      destruct Hv as [->|Hv]; [rewrite N.eqb_refl; reflexivity|].
      destruct (N.eqb_spec (v_addr w) (v_addr v)) as [Q|Q]; [|exact (IH Hv N2)].
      exfalso. apply N1. rewrite Q. apply in_map. exact Hv. }
    clear Hs He Hk. revert l p x E. generalize (d_expire d) as x0.
    revert Hc K. generalize (d_entries d). clear -t.
    induction l as [|e l IH]; intros Hc K x0 r p x E; cbn [sweep_entries] in E.
    + injection E as <- <- <-. intros ? [].
    + destruct (sweep_vals t (d_replic d) x0 (e_vals e)) as [[vs p1] x1] eqn:E1.
      destruct (sweep_entries t (d_replic d) x1 l) as [[r2 q] y] eqn:E2. injection E as <- <- <-.
      intros f [<-|H].
      * cbn [e_n e_vals]. rewrite (Hc e (or_introl eq_refl)). f_equal. symmetry.
        assert (V : forall v, In v (e_vals e) -> t <= v_exp v)
          by (intros v; apply (K e v (or_introl eq_refl))).
        clear -V E1. revert x0 vs p1 x1 V E1.
        induction (e_vals e) as [|v vl IHv]; intros x0 vs p1 x1 V E1; cbn [sweep_vals] in E1.
        -- injection E1 as <- <- <-. reflexivity.
        -- assert (Vv := V v (or_introl eq_refl)).
           destruct (Z.ltb_spec (v_exp v) t); [lia|].
           destruct (v_rep v <? t).
           ++ destruct (sweep_vals t (d_replic d) t vl) as [[r1 p2] y1] eqn:E3.
              injection E1 as <- <- <-. cbn. f_equal.
              apply (IHv _ _ _ _ (fun w H => V w (or_intror H)) E3).
           ++ destruct (sweep_vals t (d_replic d) x0 vl) as [[r1 p2] y1] eqn:E3.
              injection E1 as <- <- <-. cbn. f_equal.
              apply (IHv _ _ _ _ (fun w H => V w (or_intror H)) E3).
      * exact (IH (fun e H => Hc e (or_intror H)) (fun e v H => K e v (or_intror H)) _ _ _ _ E2 f H).
Qed.

Lemma run_counted : forall h self x, nothing_expires h ->
  counted (d_entries (run (start self x) h)).
Proof.
  intros h self x. induction h as [|e h IH] using rev_ind; intros Hn; [exact I|].
  unfold run. rewrite fold_left_app. cbn [fold_left].
  change (fold_left handle h (start self x)) with (run (start self x) h).
  destruct (run_start h self x) as [W [_ E]].
  apply handle_counted; [exact W| |].
  - apply IH. intros h1 t h2 ->. intros key a y Y.
    apply (Hn h1 t (h2 ++ [e])) with (key := key) (a := a); [|exact Y].
    rewrite <- app_assoc. reflexivity.
  - intros t -> key a y Y. rewrite E in Y. apply (Hn h t []) with (key := key) (a := a); auto.
Qed.

Theorem dht_entries_partial : forall h self x key,
  nothing_expires h ->
  let d := run (start self x) h in
  (dht_find_entry (d_entries d) key = None <-> forall a, until h key a = None) /\
  dht_retrieve d key <> Some Junk /\ dht_query_local d key <> Abort.
Proof.
  intros h self x key Hn d. subst d. assert (C := run_counted h self x Hn).
  destruct (run_start h self x) as [[W1 W2] [_ E]]. specialize (E key).
  rewrite counted_in in C. unfold exp_d, vals_of in E.
  unfold dht_retrieve, dht_query_local, dht_entry_get_addr.
  destruct (dht_find_entry (d_entries (run (start self x) h)) key) as [e|] eqn:F.
  - destruct (find_in _ _ _ F) as [I1 _]. destruct (W2 e I1) as [_ [_ P]].
    specialize (C e I1). destruct (e_vals e) as [|v l] eqn:V; [cbn in C; lia|].
    split; [|split; [|discriminate]].
    + split; [discriminate|]. intros A. specialize (A (v_addr v)). rewrite <- E in A.
      cbn in A. rewrite N.eqb_refl in A. discriminate.
    + destruct (N.min 1 (e_n e) =? 0)%N; discriminate.
  - split; [|split; discriminate]. split; [|reflexivity]. intros _ a. rewrite <- E. reflexivity.
Qed.
Print Assumptions dht_entries_partial.

(* An address is still in the answer after its lifetime, until a sweep comes. *)
Theorem dht_answer_expired_refuted :
  exists h key a t, dht_retrieve (run (start 7 86400) h) key = Some (Address a) /\
    (forall s, In (Sweep s) h -> s <= t) /\
    ~ good_at h key a t.
Proof.
  exists [Store 100 [1%N] 5 10], [1%N], 5%N, 200.
  split; [reflexivity|]. split; [intros s [F|[]]; discriminate|].
  intros [x [E L]]. vm_compute in E. injection E as <-. lia.
Qed.
Print Assumptions dht_answer_expired_refuted.

(* Once a sweep has found the last address expired, the entry stays: the
   answer to others is memory that was never written, and the node's own
   query fails an assertion. *)
Theorem dht_answer_junk_refuted : forall self x key a t l now,
  t + l < now ->
  let d := run (start self x) [Store t key a l; Sweep now] in
  dht_retrieve d key = Some Junk /\ dht_query_local d key = Abort /\
  forall b, until [Store t key a l; Sweep now] key b = None.
Proof.
  intros self x key a t l now H. cbv zeta.
  assert (E : (t + l <? now) = true) by (apply Z.ltb_lt; exact H).
  assert (D : run (start self x) [Store t key a l; Sweep now] =
              Dht [Entry key [] 1] self x KAD_T_REPL).
  { cbn [run fold_left handle]. unfold kad_add, start, sweep, set_entries, dht_entry_add_addr,
      val_create. cbn [d_entries dht_find_entry d_addr d_expire d_replic e_vals refresh e_key e_n
      sweep_entries sweep_vals v_exp]. rewrite E. reflexivity. }
  rewrite D. unfold dht_retrieve, dht_query_local. cbn [d_entries dht_find_entry e_key].
  rewrite id_eqb_refl. split; [reflexivity|]. split; [reflexivity|].
  intros b. cbn. rewrite id_eqb_refl. cbn [andb].
  destruct (a =? b)%N; [rewrite E|]; reflexivity.
Qed.
Print Assumptions dht_answer_junk_refuted.

(* Non-vacuous: two addresses for one key, one for another; one runs out. *)
Definition demo : list event :=
  [Store 0 [1%N] 5 1000; Store 10 [1%N] 6 2000; Store 20 [2%N] 5 3000; Store 30 [1%N] 5 500;
   Sweep 500; Delete [2%N] 5; Sweep 1001].
Example dht_answer_case :
  let d := run (start 7 86400) demo in
  dht_retrieve d [1%N] = Some (Address 6) /\ until demo [1%N] 5 = None /\
  until demo [1%N] 6 = Some 2010 /\ dht_retrieve d [2%N] = None /\
  dht_query_local d [1%N] = Got 6.
Proof. vm_compute. repeat split. Qed.

Example dht_entries_case :
  nothing_expires [Store 0 [1%N] 5 1000; Sweep 500; Delete [1%N] 5] /\
  until [Store 0 [1%N] 5 1000; Sweep 500] [1%N] 5 = Some 1000.
Proof.
  split; [|reflexivity]. intros h1 t h2 E key a x U.
  destruct h1 as [|e1 [|e2 [|e3 [|e4 h1]]]]; cbn in E; try discriminate.
  - injection E as <- <- <-. unfold until in U. cbn [fold_left until1] in U.
    destruct (id_eqb [1%N] key && (5 =? a)%N); [injection U as <-; lia|discriminate].
Qed.

(* -- The lifetime of what a node publishes (property C69) -------------------------- *)

(* The full property is: in every history the lifetime in the messages of a
   node is the one of the layer (86400 seconds in the bootstrapping node,
   dht.c:2272; what the enrolment said in the others, 2161).  What holds: as
   long as no sweep publishes anything. *)
Definition published (d : dht) (e : event) : list (ident * N * Z) :=
  match e with Sweep t => snd (sweep t d) | _ => [] end.

Fixpoint all_published (d : dht) (h : list event) : list (ident * N * Z) :=
  match h with [] => [] | e :: h' => published d e ++ all_published (handle d e) h' end.

Lemma sweep_expire : forall now rp l x r p y,
  (forall e, In e l -> NoDup (addrs (e_vals e))) ->
  sweep_entries now rp x l = (r, p, y) ->
  (p = [] -> y = x) /\ (p <> [] -> y = now) /\ (forall k a z, In (k, a, z) p -> z = now).
Proof.
  induction l as [|e l IH]; intros x r p y Hn E; cbn [sweep_entries] in E.
  - injection E as <- <- <-. split; [auto|]. split; [congruence|intros ? ? ? []].
  - destruct (sweep_vals now rp x (e_vals e)) as [[vs p1] x1] eqn:E1.
    destruct (sweep_entries now rp x1 l) as [[r2 q] y1] eqn:E2. injection E as <- <- <-.
    destruct (sweep_vals_spec _ _ _ _ _ _ _ (Hn e (or_introl eq_refl)) E1) as [_ [_ [_ [S1 [S2 [S3 _]]]]]].
    assert (S4 : p1 <> [] -> x1 = now).
    { clear -E1. revert x vs p1 x1 E1. induction (e_vals e) as [|v l IH]; intros x vs p1 x1 E1 H;
        cbn [sweep_vals] in E1; [injection E1 as <- <- <-; congruence|].
      destruct (v_exp v <? now); [exact (IH _ _ _ _ E1 H)|].
      destruct (v_rep v <? now).
      - destruct (sweep_vals now rp now l) as [[r1 p2] y2] eqn:E3. injection E1 as <- <- <-.
        destruct p2 as [|z p2]; [|apply (IH _ _ _ _ E3); discriminate].
        clear -E3. assert (G : forall l x r y, sweep_vals now rp x l = (r, [], y) -> y = x).
        { clear. induction l as [|v l IH]; intros x r y E; cbn [sweep_vals] in E.
          - injection E as <- <-. reflexivity.
          - destruct (v_exp v <? now); [exact (IH _ _ _ E)|].
            destruct (v_rep v <? now); destruct (sweep_vals now rp _ l) as [[a b] c] eqn:F;
              [discriminate|]. injection E as <- -> <-. exact (IH _ _ _ F). }
        exact (G _ _ _ _ E3).
      - destruct (sweep_vals now rp x l) as [[r1 p2] y2] eqn:E3. injection E1 as <- <- <-.
        exact (IH _ _ _ _ E3 H). }
    destruct (IH _ _ _ _ (fun e H => Hn e (or_intror H)) E2) as [I1 [I2 I3]].
    split; [|split].
    + intros H. apply app_eq_nil in H. destruct H as [H1 H2]. rewrite (I1 H2). apply S3.
      destruct p1; [reflexivity|discriminate].
    + intros H. destruct q as [|z q]; [|apply I2; discriminate].
      rewrite (I1 eq_refl). apply S4. intros ->. apply H. reflexivity.
    + intros k a z H. apply in_app_or in H. destruct H as [H|H]; [|exact (I3 _ _ _ H)].
      apply in_map_iff in H. destruct H as [[b w] [F G]]. cbn in F. injection F as _ _ <-.
      apply (S1 b w G).
Qed.

Theorem dht_publish_lifetime_partial : forall h self x,
  all_published (start self x) h = [] ->
  kad_publish_lifetime (run (start self x) h) = x.
Proof.
  intros h self x H.
  assert (G : forall h d, wf (d_entries d) -> all_published d h = [] ->
              d_expire (run d h) = d_expire d).
  { clear. induction h as [|e h IH]; intros d W H; [reflexivity|].
    cbn [all_published] in H. apply app_eq_nil in H. destruct H as [H1 H2].
    cbn [run fold_left]. change (fold_left handle h (handle d e)) with (run (handle d e) h).
    destruct (handle_spec d e W) as [W' _].
    rewrite (IH _ W' H2). destruct e as [t k a l|k a|t]; cbn [handle].
    - unfold kad_add. destruct (dht_find_entry (d_entries d) k); reflexivity.
    - unfold dht_del. destruct (dht_find_entry (d_entries d) k); reflexivity.
    - cbn [published] in H1. unfold sweep in *.
      destruct (sweep_entries t (d_replic d) (d_expire d) (d_entries d)) as [[l p] y] eqn:E.
      cbn in *. apply (sweep_expire _ _ _ _ _ _ _ (fun e H => proj1 (proj2 W e H)) E). exact H1. }
  apply (G h (start self x)); [split; [constructor|intros ? []]|exact H].
Qed.
Print Assumptions dht_publish_lifetime_partial.

(* The first address that is published again carries the time of day as its
   lifetime, and so does everything the node publishes from then on: an
   address stored in 2026 with a lifetime of a day is published with one of
   over 56 years. *)
Theorem dht_publish_lifetime_refuted :
  exists h key a, all_published (start 7 86400) h = [(key, a, 1794822000)] /\
    kad_publish_lifetime (run (start 7 86400) h) = 1794822000.
Proof.
  exists [Store 1794820000 [1%N] 5 86400; Sweep 1794822000], [1%N], 5%N.
  split; reflexivity.
Qed.
Print Assumptions dht_publish_lifetime_refuted.

(* In general: whatever a sweep publishes has its own time as the lifetime. *)
Theorem dht_publish_time_of_day : forall h self x t k a z,
  In (k, a, z) (published (run (start self x) h) (Sweep t)) ->
  z = t /\ kad_publish_lifetime (handle (run (start self x) h) (Sweep t)) = t.
Proof.
  intros h self x t k a z H. destruct (run_start h self x) as [W _].
  cbn [published handle] in *. unfold sweep in *.
  destruct (sweep_entries t (d_replic (run (start self x) h)) (d_expire (run (start self x) h))
              (d_entries (run (start self x) h))) as [[l p] y] eqn:E.
  destruct (sweep_expire _ _ _ _ _ _ _ (fun e H => proj1 (proj2 W e H)) E) as [_ [A B]].
  cbn in *. split; [exact (B _ _ _ H)|]. apply A. intros ->. destruct H.
Qed.
Print Assumptions dht_publish_time_of_day.

Example dht_publish_case :
  all_published (start 7 86400) [Store 0 [1%N] 5 86400; Sweep 800] = [].
Proof. reflexivity. Qed.
