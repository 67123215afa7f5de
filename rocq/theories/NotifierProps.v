(** Theorems about the notifier (C92). *)
From Coq Require Import List Bool Arith Lia Permutation.
From Verif Require Import NotifierModel NotifierSpec.
Import ListNotations.

(** ** Who listens *)
Lemma reg_known : forall c o ls, (exists l, In l ls /\ cb l = c) -> reg c o ls = (ls, false).
Proof.
  intros c o ls (l & I & E). unfold reg. replace (existsb _ ls) with true; [reflexivity|]. symmetry.
  apply existsb_exists. exists l. split; [exact I|apply Nat.eqb_eq; exact E].
Qed.
Lemma reg_new : forall c o ls, (forall l, In l ls -> cb l <> c) -> reg c o ls = (ls ++ [Lst c o], true).
Proof.
  intros c o ls H. unfold reg. destruct (existsb _ ls) eqn:E; [|reflexivity]. apply existsb_exists in E.
  destruct E as (l & I & E). apply Nat.eqb_eq in E. elim (H l I E).
Qed.
Lemma unreg_in : forall c ls l, NoDup (map cb ls) -> (In l (unreg c ls) <-> In l ls /\ cb l <> c).
Proof.
  intros c ls. induction ls as [|a ls IH]; intros l N; [cbn; tauto|]. cbn [map] in N. inversion N as [|? ? N1 N2]; subst.
  cbn [unreg]. destruct (Nat.eqb_spec (cb a) c) as [E|E].
  - split.
    + intros I. split; [right; exact I|]. intros X. apply N1. rewrite E, <- X. apply in_map. exact I.
    + intros ([<-|I] & X); [contradiction|exact I].
  - cbn [In]. rewrite (IH l N2). split; [intros [<-|(I & X)]; auto|]. intros ([<-|I] & X); auto.
Qed.
Lemma unreg_sub : forall c ls, exists a b, ls = a ++ b /\ (unreg c ls = ls \/ exists x d, b = x :: d /\ cb x = c /\ unreg c ls = a ++ d).
Proof.
  intros c ls. induction ls as [|l ls IH]; [exists [], []; auto|]. cbn [unreg]. destruct (Nat.eqb_spec (cb l) c) as [E|E].
  - exists [], (l :: ls). split; [reflexivity|]. right. exists l, ls. auto.
  - destruct IH as (a & b & A & [B|(x & d & B1 & B2 & B3)]).
    + exists (l :: a), b. split; [rewrite A; reflexivity|]. left. rewrite B. reflexivity.
    + exists (l :: a), b. split; [rewrite A; reflexivity|]. right. exists x, d. rewrite B3. auto.
Qed.

Lemma since_lt : forall h c o n, listening h c = Some (o, n) -> n < length h.
Proof.
  intros h. induction h as [|e h IH]; intros c o n H; [discriminate H|]. cbn [length].
  destruct e as [c' o'|c'|e]; cbn [listening] in H.
  - destruct (Nat.eqb_spec c' c) as [E|E]; [destruct (listening h c) as [x|] eqn:L; injection H as H|].
    + subst x. specialize (IH c o n L). lia.
    + lia.
    + specialize (IH c o n H). lia.
  - destruct (Nat.eqb_spec c' c) as [E|E]; [discriminate H|]. specialize (IH c o n H). lia.
  - specialize (IH c o n H). lia.
Qed.

Lemma nodup_listeners : forall h, NoDup (map cb (listeners h)).
Proof.
  intros h. induction h as [|e h IH]; [constructor|]. destruct e as [c o|c|e]; cbn [listeners]; [| |exact IH].
  - unfold reg. destruct (existsb (fun l => cb l =? c) (listeners h)) eqn:E; [exact IH|]. cbn [fst]. rewrite map_app. cbn [map cb].
    apply NoDup_rev in IH. rewrite <- (rev_involutive (map cb (listeners h) ++ [c])). apply NoDup_rev.
    rewrite rev_app_distr. cbn [rev app]. constructor; [|exact IH]. rewrite <- in_rev. intros I. apply in_map_iff in I.
    destruct I as (l & A & B). assert (X : existsb (fun l => cb l =? c) (listeners h) = true); [|congruence].
    apply existsb_exists. exists l. split; [exact B|apply Nat.eqb_eq; exact A].
  - destruct (unreg_sub c (listeners h)) as (a & b & A & [B|(x & d & B1 & B2 & B3)]); [rewrite B; exact IH|].
    rewrite B3. rewrite A, B1 in IH. rewrite map_app in *. cbn [map] in IH. apply NoDup_remove_1 in IH. exact IH.
Qed.

(** The listeners are exactly the callbacks that registered and did not
    unregister since, each once, with the object of the first registration. *)
Theorem notifier_listeners : forall h c o,
  In (Lst c o) (listeners h) <-> exists n, listening h c = Some (o, n).
Proof.
  intros h. induction h as [|e h IH]; intros c o; [cbn; split; [intros []|intros (n & H); discriminate H]|].
  destruct e as [c' o'|c'|e]; cbn [listeners listening]; [| |apply IH].
  - destruct (Nat.eqb_spec c' c) as [E|E].
    + subst c'. destruct (listening h c) as [[o1 n1]|] eqn:L.
      * rewrite reg_known; [cbn [fst]; rewrite IH, L; reflexivity|].
        exists (Lst c o1). split; [apply IH; exists n1; exact L|reflexivity].
      * rewrite reg_new.
        -- cbn [fst]. rewrite in_app_iff. cbn [In]. split.
           ++ intros [I|[I|[]]]; [apply IH in I; destruct I as (n & I); congruence|]. injection I as ->. exists (length h). reflexivity.
           ++ intros (n & H). injection H as -> _. auto.
        -- intros l I X. destruct l as [c1 o1]. cbn [cb] in X. subst c1. apply IH in I. destruct I as (n & I). congruence.
    + assert (X : In (Lst c o) (fst (reg c' o' (listeners h))) <-> In (Lst c o) (listeners h)); [|rewrite X; apply IH].
      unfold reg. destruct (existsb _ _); cbn [fst]; [reflexivity|]. rewrite in_app_iff. cbn [In].
      split; [intros [I|[I|[]]]; [exact I|congruence]|auto].
  - rewrite unreg_in by apply nodup_listeners. cbn [cb]. destruct (Nat.eqb_spec c' c) as [E|E].
    + split; [intros (_ & X); congruence|intros (n & H); discriminate H].
    + rewrite IH. split; [intros (X & _); exact X|intros X; split; [exact X|congruence]].
Qed.

Lemma before_in : forall ls l l', before ls l l' -> In l ls /\ In l' ls.
Proof.
  intros ls l l' (a & b & d & ->). split; [apply in_elt|]. apply in_or_app. right. right. apply in_elt.
Qed.
Lemma before_snoc : forall ls x l l', before (ls ++ [x]) l l' -> before ls l l' \/ (l' = x /\ In l ls).
Proof.
  intros ls x l l' (a & b & d & H). destruct (exists_last (l := l' :: d)) as (d' & y & Hd); [discriminate|].
  rewrite Hd in H. replace (a ++ l :: b ++ d' ++ [y]) with ((a ++ l :: b ++ d') ++ [y]) in H by (rewrite <- !app_assoc; cbn [app]; rewrite <- app_assoc; reflexivity).
  apply app_inj_tail in H. destruct H as (H & X). subst y. destruct d' as [|z d'].
  - right. injection Hd as -> _. split; [reflexivity|]. rewrite H, app_nil_r. apply in_elt.
  - left. injection Hd as <- Hd. exists a, b, d'. exact H.
Qed.
Lemma before_unreg : forall c ls l l', before (unreg c ls) l l' -> before ls l l'.
Proof.
  intros c ls l l' H. destruct (unreg_sub c ls) as (a & b & A & [B|(x & d & B1 & B2 & B3)]); [rewrite B in H; exact H|].
  rewrite B3 in H. rewrite A, B1. clear - H. revert H. induction a as [|y a IH]; intros (p & q & r & H).
  - cbn [app] in *. exists (x :: p), q, r. rewrite H. reflexivity.
  - cbn [app] in H. destruct p as [|z p]; cbn [app] in H; injection H as -> H.
    + assert (I : In l' (a ++ d)) by (rewrite H; apply in_elt). apply in_app_or in I. destruct I as [I|I].
      * apply in_split in I. destruct I as (u & v & ->). exists [], u, (v ++ x :: d). cbn [app]. rewrite <- app_assoc. reflexivity.
      * apply in_split in I. destruct I as (u & v & ->). exists [], (a ++ x :: u), v. cbn [app]. rewrite <- app_assoc. reflexivity.
    + destruct (IH (ex_intro _ p (ex_intro _ q (ex_intro _ r H)))) as (p' & q' & r' & H'). exists (z :: p'), q', r'. cbn [app]. rewrite H'. reflexivity.
Qed.

(** They are called in the order in which they registered. *)
Theorem notifier_order : forall h l l', before (listeners h) l l' ->
  exists n n', listening h (cb l) = Some (obj l, n) /\ listening h (cb l') = Some (obj l', n') /\ n < n'.
Proof.
  intros h l l' B.
  assert (K : exists n n' o o', listening h (cb l) = Some (o, n) /\ listening h (cb l') = Some (o', n') /\ n < n').
  { revert l l' B. induction h as [|e h IH]; intros l l' B; [destruct B as (a & b & d & B); destruct a; discriminate B|].
    destruct e as [c o|c|e]; cbn [listeners listening] in *; [| |apply IH; exact B].
    - unfold reg in B. destruct (existsb (fun l => cb l =? c) (listeners h)) eqn:E; cbn [fst] in B.
      + destruct (IH l l' B) as (n & n' & o1 & o2 & A1 & A2 & A3). exists n, n', o1, o2.
        destruct (c =? cb l), (c =? cb l'); rewrite ?A1, ?A2; auto.
      + destruct (before_snoc _ _ _ _ B) as [B'|(-> & I)].
        * destruct (IH l l' B') as (n & n' & o1 & o2 & A1 & A2 & A3). exists n, n', o1, o2.
          destruct (c =? cb l), (c =? cb l'); rewrite ?A1, ?A2; auto.
        * destruct l as [cl ol]. apply notifier_listeners in I. destruct I as (n & I). cbn [cb] in *. rewrite Nat.eqb_refl.
          exists n. assert (L : listening h c = None).
          { destruct (listening h c) as [[o1 n1]|] eqn:L; [|reflexivity]. exfalso.
            assert (X : existsb (fun l => cb l =? c) (listeners h) = true); [|congruence]. apply existsb_exists.
            exists (Lst c o1). split; [apply notifier_listeners; exists n1; exact L|apply Nat.eqb_refl]. }
          rewrite L. exists (length h), ol, o. destruct (Nat.eqb_spec c cl) as [Q|Q]; [subst cl; congruence|].
          split; [exact I|]. split; [reflexivity|]. apply (since_lt h cl ol n I).
    - pose proof (before_unreg _ _ _ _ B) as B'. destruct (IH l l' B') as (n & n' & o1 & o2 & A1 & A2 & A3).
      destruct (before_in _ _ _ B) as (I1 & I2). apply unreg_in in I1, I2; try apply nodup_listeners.
      exists n, n', o1, o2. destruct (Nat.eqb_spec c (cb l)) as [Q|Q]; [elim (proj2 I1); congruence|].
      destruct (Nat.eqb_spec c (cb l')) as [Q'|Q']; [elim (proj2 I2); congruence|]. auto. }
  destruct K as (n & n' & o & o' & A1 & A2 & A3). exists n, n'.
  destruct (before_in _ _ _ B) as (I1 & I2). destruct l as [c1 p1], l' as [c2 p2]. cbn [cb obj] in *.
  apply notifier_listeners in I1, I2. destruct I1 as (m & I1), I2 as (m' & I2).
  rewrite I1 in A1. rewrite I2 in A2. injection A1 as -> ->. injection A2 as -> ->. auto.
Qed.

(** ** What they are called with *)
Section Events.
Variable react : listener -> nat -> list act.

Definition acts_of (n : nat) (all : list listener) : list act -> res :=
  fix acts (l : list act) : res :=
    match l with
    | [] => Done []
    | Raise e' :: l => bind (event react n all e') (fun t1 => bind (acts l) (fun t2 => Done (t1 ++ t2)))
    | Register :: _ | Unregister :: _ => Hang
    end.
Definition each_of (n : nat) (all : list listener) (e : nat) : list listener -> res :=
  fix each (ls : list listener) : res :=
    match ls with
    | [] => Done []
    | l :: ls => bind (acts_of n all (react l e)) (fun t1 => bind (each ls) (fun t2 => Done ((l, e) :: t1 ++ t2)))
    end.
Lemma event_S : forall n all e, event react (S n) all e = each_of n all e all.
Proof. reflexivity. Qed.
Lemma each_cons : forall n all e l ls tr, each_of n all e (l :: ls) = Done tr ->
  exists t1 t2, acts_of n all (react l e) = Done t1 /\ each_of n all e ls = Done t2 /\ tr = (l, e) :: t1 ++ t2.
Proof.
  intros n all e l ls tr H. cbn [each_of] in H. fold (each_of n all e) in H.
  destruct (acts_of n all (react l e)) as [t1| |]; try discriminate H. cbn [bind] in H.
  destruct (each_of n all e ls) as [t2| |]; try discriminate H. cbn [bind] in H. injection H as <-. exists t1, t2. auto.
Qed.
Lemma acts_cons : forall n all a l tr, acts_of n all (a :: l) = Done tr ->
  exists e t1 t2, a = Raise e /\ event react n all e = Done t1 /\ acts_of n all l = Done t2 /\ tr = t1 ++ t2.
Proof.
  intros n all a l tr H. destruct a as [e| |]; try discriminate H. cbn [acts_of] in H. fold (acts_of n all) in H.
  destruct (event react n all e) as [t1| |] eqn:E; try discriminate H. cbn [bind] in H.
  destruct (acts_of n all l) as [t2| |]; try discriminate H. cbn [bind] in H. injection H as <-. exists e, t1, t2. auto.
Qed.

Lemma seen_app : forall c a b, seen c (a ++ b) = seen c a ++ seen c b.
Proof.
  intros c a b. induction a as [|[l e] a IH]; [reflexivity|]. cbn [app seen]. destruct (cb l =? c); rewrite IH; reflexivity.
Qed.

Notation count := (count_occ Nat.eq_dec).

(* the number of times a listener is called with x in an event, for any listener *)
Definition fair (all : list listener) (tr : list call) : Prop :=
  forall c c' x, In c (map cb all) -> In c' (map cb all) -> count (seen c tr) x = count (seen c' tr) x.

Lemma each_count : forall n all e, (forall e' tr, event react n all e' = Done tr -> fair all tr) ->
  forall ls tr, each_of n all e ls = Done tr -> NoDup (map cb ls) ->
  exists f : nat -> nat, forall c x, In c (map cb all) ->
    count (seen c tr) x = f x + (if in_dec Nat.eq_dec c (map cb ls) then if Nat.eq_dec e x then 1 else 0 else 0).
Proof.
  intros n all e H.
  assert (A : forall l tr, acts_of n all l = Done tr -> fair all tr).
  { intros l. induction l as [|a l IH]; intros tr E.
    - injection E as <-. intros c c' x _ _. reflexivity.
    - destruct (acts_cons _ _ _ _ _ E) as (e' & t1 & t2 & _ & E1 & E2 & ->). intros c c' x C C'.
      rewrite !seen_app, !count_occ_app. rewrite (H e' t1 E1 c c' x C C'), (IH t2 E2 c c' x C C'). reflexivity. }
  intros ls. induction ls as [|l ls IH]; intros tr E N.
  - injection E as <-. exists (fun _ => 0). intros c x _. reflexivity.
  - destruct (each_cons _ _ _ _ _ _ E) as (t1 & t2 & E1 & E2 & ->). cbn [map] in N. inversion N as [|? ? N1 N2]; subst.
    destruct (IH t2 E2 N2) as (f & F). pose proof (A _ _ E1) as A1.
    destruct all as [|l0 all0]; [exists (fun _ => 0); intros c x []|].
    exists (fun x => count (seen (cb l0) t1) x + f x). intros c x C. cbn [seen map].
    rewrite seen_app. destruct (Nat.eqb_spec (cb l) c) as [Q|Q].
    + subst c. destruct (in_dec Nat.eq_dec (cb l) (cb l :: map cb ls)) as [_|X]; [|elim X; left; reflexivity].
      pose proof (F (cb l) x C) as Fx. destruct (in_dec Nat.eq_dec (cb l) (map cb ls)) as [X|_]; [contradiction|].
      cbn [count_occ]. rewrite count_occ_app, Fx, (A1 (cb l) (cb l0) x C (or_introl eq_refl)).
      destruct (Nat.eq_dec e x); lia.
    + rewrite count_occ_app, (F c x C), (A1 c (cb l0) x C (or_introl eq_refl)).
      destruct (in_dec Nat.eq_dec c (map cb ls)) as [X|X], (in_dec Nat.eq_dec c (cb l :: map cb ls)) as [Y|Y]; try lia.
      * elim Y. right. exact X.
      * destruct Y as [Y|Y]; [contradiction|contradiction].
Qed.

(** Whatever the listeners raise while they are called: when the call that
    raised an event returns, all of them were called equally often with every
    event, and with this one at least once. *)
Theorem notifier_all_alike : forall n h e tr, event react n (listeners h) e = Done tr ->
  forall c c' x, In c (map cb (listeners h)) -> In c' (map cb (listeners h)) ->
    count (seen c tr) x = count (seen c' tr) x /\ 0 < count (seen c tr) e.
Proof.
  intros n h. pose proof (nodup_listeners h) as N. revert N. generalize (listeners h) as all. intros all N.
  assert (F : forall n e tr, event react n all e = Done tr -> fair all tr /\ forall c, In c (map cb all) -> 0 < count (seen c tr) e).
  { clear n. intros n. induction n as [|n IH]; intros e tr H; [discriminate H|]. rewrite event_S in H.
    destruct (each_count n all e (fun e' t E => proj1 (IH e' t E)) all tr H N) as (f & F). split.
    - intros c c' x C C'. rewrite (F c x C), (F c' x C').
      destruct (in_dec Nat.eq_dec c (map cb all)) as [_|X]; [|contradiction].
      destruct (in_dec Nat.eq_dec c' (map cb all)) as [_|X]; [reflexivity|contradiction].
    - intros c C. rewrite (F c e C). destruct (in_dec Nat.eq_dec c (map cb all)) as [_|X]; [|contradiction].
      destruct (Nat.eq_dec e e) as [_|X]; [lia|contradiction]. }
  intros e tr H c c' x C C'. destruct (F n e tr H) as (A & B). split; [apply A; assumption|apply B; exact C].
Qed.

Definition silent (ls : list listener) : Prop := forall l e, In l ls -> react l e = [].

(** If they raise nothing, each is called exactly once, in order, with its
    own object. *)
Theorem notifier_once : forall n h e, silent (listeners h) ->
  event react (S n) (listeners h) e = Done (map (fun l => (l, e)) (listeners h)).
Proof.
  intros n h e S. rewrite event_S. unfold silent in S. revert S.
  assert (G : forall all ls, (forall l e, In l ls -> react l e = []) -> each_of n all e ls = Done (map (fun l => (l, e)) ls)).
  { intros all ls. induction ls as [|l ls IH]; intros S; [reflexivity|]. cbn [each_of]. fold (each_of n all e).
    rewrite (S l e (or_introl eq_refl)). cbn [acts_of bind]. rewrite IH; [reflexivity|]. intros l0 e0 I. apply S. right. exact I. }
  apply G.
Qed.

(** A callback that registers or unregisters does not come back. *)
Theorem notifier_no_registration : forall n h e tr, event react n (listeners h) e = Done tr ->
  forall l x, In (l, x) tr -> ~ In Register (react l x) /\ ~ In Unregister (react l x).
Proof.
  intros n h. generalize (listeners h) as all. intros all. induction n as [|n IH]; intros e tr H l x I; [discriminate H|].
  rewrite event_S in H.
  assert (A : forall ac tr, acts_of n all ac = Done tr -> (forall l x, In (l, x) tr -> ~ In Register (react l x) /\ ~ In Unregister (react l x)) /\
     ~ In Register ac /\ ~ In Unregister ac).
  { intros ac. induction ac as [|a ac IA]; intros t E; [injection E as <-; split; [intros ? ? []|split; intros []]|].
    destruct (acts_cons _ _ _ _ _ E) as (e' & t1 & t2 & -> & E1 & E2 & ->). destruct (IA t2 E2) as (A1 & A2 & A3). split; [|split].
    - intros l0 x0 J. apply in_app_or in J. destruct J as [J|J]; [apply (IH e' t1 E1); exact J|apply A1; exact J].
    - intros [J|J]; [discriminate J|contradiction].
    - intros [J|J]; [discriminate J|contradiction]. }
  assert (G : forall ls tr, each_of n all e ls = Done tr -> forall l x, In (l, x) tr -> ~ In Register (react l x) /\ ~ In Unregister (react l x)).
  { intros ls. induction ls as [|l0 ls IL]; intros t E l1 x1 J; [injection E as <-; elim J|].
    destruct (each_cons _ _ _ _ _ _ E) as (t1 & t2 & E1 & E2 & ->). destruct (A _ _ E1) as (A1 & A2 & A3).
    destruct J as [J|J]; [injection J as <- <-; split; assumption|]. apply in_app_or in J.
    destruct J as [J|J]; [apply A1; exact J|apply (IL t2 E2); exact J]. }
  apply (G all tr H l x I).
Qed.
End Events.

(** Two events raised one after the other by the same thread are seen in this
    order by every listener, if the listeners raise nothing. *)
Theorem notifier_same_order_partial : forall react n h e e' tr tr', silent react (listeners h) ->
  event react n (listeners h) e = Done tr -> event react n (listeners h) e' = Done tr' ->
  forall c, In c (map cb (listeners h)) -> seen c (tr ++ tr') = [e; e'].
Proof.
  intros react n h e e' tr tr' S A B c C. destruct n as [|n]; [discriminate A|].
  rewrite notifier_once in A, B by exact S. injection A as <-. injection B as <-. rewrite seen_app.
  assert (G : forall x ls, NoDup (map cb ls) -> seen c (map (fun l => (l, x)) ls) = if in_dec Nat.eq_dec c (map cb ls) then [x] else []).
  { intros x ls. induction ls as [|l ls IH]; intros N; [reflexivity|]. cbn [map] in N. inversion N as [|? ? N1 N2]; subst.
    cbn [map seen]. rewrite (IH N2). destruct (Nat.eqb_spec (cb l) c) as [Q|Q].
    - subst c. destruct (in_dec Nat.eq_dec (cb l) (map cb ls)) as [X|_]; [contradiction|].
      destruct (in_dec Nat.eq_dec (cb l) (cb l :: map cb ls)) as [_|X]; [reflexivity|elim X; left; reflexivity].
    - destruct (in_dec Nat.eq_dec c (map cb ls)) as [X|X], (in_dec Nat.eq_dec c (cb l :: map cb ls)) as [Y|Y]; try reflexivity.
      + elim Y. right. exact X.
      + destruct Y as [Y|Y]; contradiction. }
  rewrite !G by apply nodup_listeners. destruct (in_dec Nat.eq_dec c (map cb (listeners h))); [reflexivity|contradiction].
Qed.

(** With the listeners of the IPCP it is not so: when a flow goes down, those
    that registered after the connection manager hear of the end of the
    connection before that of the flow, those before it after. *)
Definition ipcp_h : list op := [Reg 3 0; Reg 2 0; Reg 1 0].
Theorem notifier_same_order_refuted :
  ~ (forall h e tr c c', event (react_ipcp 2) 2 (listeners h) e = Done tr ->
       In c (map cb (listeners h)) -> In c' (map cb (listeners h)) -> seen c tr = seen c' tr).
Proof.
  intros F.
  assert (X : seen 1 [(Lst 1 0, FLOW_DOWN); (Lst 2 0, FLOW_DOWN); (Lst 1 0, CONN_DOWN); (Lst 2 0, CONN_DOWN); (Lst 3 0, CONN_DOWN); (Lst 3 0, FLOW_DOWN)] =
              seen 3 [(Lst 1 0, FLOW_DOWN); (Lst 2 0, FLOW_DOWN); (Lst 1 0, CONN_DOWN); (Lst 2 0, CONN_DOWN); (Lst 3 0, CONN_DOWN); (Lst 3 0, FLOW_DOWN)]).
  { apply (F ipcp_h FLOW_DOWN); [vm_compute; reflexivity|cbn; auto|cbn; auto]. }
  vm_compute in X. discriminate X.
Qed.

(** An event of the IPCP never nests deeper than two, and always ends. *)
Theorem notifier_ipcp_ends : forall m h e, exists tr, event (react_ipcp m) 2 (listeners h) e = Done tr.
Proof.
  intros m h e. generalize (listeners h) as all. intros all.
  assert (Q : forall e' l, In e' [CONN_UP; CONN_DOWN; CONN_DEL] -> react_ipcp m l e' = []).
  { intros e' l I. unfold react_ipcp. destruct (cb l =? m); [|reflexivity].
    destruct I as [<- | [<- | [<- | []]]]; reflexivity. }
  assert (One : forall e', In e' [CONN_UP; CONN_DOWN; CONN_DEL] -> forall ls, exists tr, each_of (react_ipcp m) 0 all e' ls = Done tr).
  { intros e' I ls. induction ls as [|l ls (tr & IH)]; [exists []; reflexivity|]. cbn [each_of].
    fold (each_of (react_ipcp m) 0 all e'). rewrite (Q e' l I), IH. cbn. exists ((l, e') :: tr). reflexivity. }
  assert (R : forall l, exists tr, acts_of (react_ipcp m) 1 all (react_ipcp m l e) = Done tr).
  { intros l. unfold react_ipcp at 2. destruct (cb l =? m); [|exists []; reflexivity].
    assert (G : forall e', In e' [CONN_UP; CONN_DOWN; CONN_DEL] -> exists tr, acts_of (react_ipcp m) 1 all [Raise e'] = Done tr).
    { intros e' I. destruct (One e' I all) as (tr & T). exists (tr ++ []). cbn [acts_of]. rewrite event_S, T. reflexivity. }
    destruct (e =? FLOW_UP); [apply G; cbn; auto|]. destruct (e =? FLOW_DOWN); [apply G; cbn; auto|].
    destruct (e =? FLOW_DEALLOC); [apply G; cbn; auto|]. exists []. reflexivity. }
  rewrite event_S. generalize all at 2. intros ls. induction ls as [|l ls (tr & IH)]; [exists []; reflexivity|].
  destruct (R l) as (t1 & R1). cbn [each_of]. fold (each_of (react_ipcp m) 1 all e). rewrite R1, IH. cbn [bind]. exists ((l, e) :: t1 ++ tr). reflexivity.
Qed.

(** When the flow of a connection goes up, goes down or ends, every listener
    hears once of the flow and once of the connection, that it went up, went
    down or ended respectively, and of nothing else. *)
Lemma seen_all : forall c x ls, NoDup (map cb ls) ->
  seen c (map (fun l => (l, x)) ls) = if in_dec Nat.eq_dec c (map cb ls) then [x] else [].
Proof.
  intros c x ls. induction ls as [|l ls IH]; intros N; [reflexivity|]. cbn [map] in N. inversion N as [|? ? N1 N2]; subst.
  cbn [map seen]. rewrite (IH N2). destruct (Nat.eqb_spec (cb l) c) as [Q|Q].
  - subst c. destruct (in_dec Nat.eq_dec (cb l) (map cb ls)) as [X|_]; [contradiction|].
    destruct (in_dec Nat.eq_dec (cb l) (cb l :: map cb ls)) as [_|X]; [reflexivity|elim X; left; reflexivity].
  - destruct (in_dec Nat.eq_dec c (map cb ls)) as [X|X], (in_dec Nat.eq_dec c (cb l :: map cb ls)) as [Y|Y]; try reflexivity.
    + elim Y. right. exact X.
    + destruct Y as [Y|Y]; contradiction.
Qed.
Theorem notifier_ipcp_heard : forall m h e e' tr, meant e e' -> In m (map cb (listeners h)) ->
  event (react_ipcp m) 2 (listeners h) e = Done tr ->
  forall c, In c (map cb (listeners h)) -> Permutation (seen c tr) [e; e'].
Proof.
  intros m h e e' tr M. pose proof (nodup_listeners h) as N. revert N. generalize (listeners h) as all. intros all N IM H c IC.
  assert (Q : forall l, react_ipcp m l e' = []) by (intros l; unfold react_ipcp; destruct M; destruct (cb l =? m); reflexivity).
  assert (R : forall l, react_ipcp m l e = if cb l =? m then [Raise e'] else []) by (intros l; unfold react_ipcp; destruct M; destruct (cb l =? m); reflexivity).
  assert (In1 : each_of (react_ipcp m) 0 all e' all = Done (map (fun l => (l, e')) all)).
  { generalize all at 2 3. intros ls. induction ls as [|l ls IH]; [reflexivity|]. cbn [each_of]. fold (each_of (react_ipcp m) 0 all e'). rewrite Q, IH. reflexivity. }
  rewrite event_S in H.
  assert (G : forall ls tr, each_of (react_ipcp m) 1 all e ls = Done tr -> NoDup (map cb ls) ->
    Permutation (seen c tr) ((if in_dec Nat.eq_dec c (map cb ls) then [e] else []) ++ (if in_dec Nat.eq_dec m (map cb ls) then [e'] else []))).
  { intros ls. induction ls as [|l ls IH]; intros t E NL; [injection E as <-; apply Permutation_refl|].
    destruct (each_cons _ _ _ _ _ _ _ E) as (t1 & t2 & E1 & E2 & ->). cbn [map] in NL. inversion NL as [|? ? N1 N2]; subst. specialize (IH t2 E2 N2).
    rewrite R in E1. assert (S1 : seen c t1 = if cb l =? m then [e'] else []).
    { destruct (cb l =? m); [|injection E1 as <-; reflexivity]. cbn [acts_of] in E1. rewrite event_S, In1 in E1. cbn [bind] in E1. injection E1 as <-.
      rewrite app_nil_r, seen_all by exact N. destruct (in_dec Nat.eq_dec c (map cb all)); [reflexivity|contradiction]. }
    assert (SM : (if in_dec Nat.eq_dec m (cb l :: map cb ls) then [e'] else []) = (if cb l =? m then [e'] else []) ++ (if in_dec Nat.eq_dec m (map cb ls) then [e'] else [])).
    { destruct (Nat.eqb_spec (cb l) m) as [X|X].
      - subst m. destruct (in_dec Nat.eq_dec (cb l) (map cb ls)); [contradiction|]. destruct (in_dec Nat.eq_dec (cb l) (cb l :: map cb ls)) as [_|Y]; [reflexivity|elim Y; left; reflexivity].
      - destruct (in_dec Nat.eq_dec m (map cb ls)) as [A|A], (in_dec Nat.eq_dec m (cb l :: map cb ls)) as [B|B]; try reflexivity; [elim B; right; exact A|destruct B; contradiction]. }
    cbn [map]. rewrite SM. cbn [seen]. rewrite seen_app, S1. destruct (Nat.eqb_spec (cb l) c) as [X|X].
    - subst c. destruct (in_dec Nat.eq_dec (cb l) (map cb ls)); [contradiction|]. destruct (in_dec Nat.eq_dec (cb l) (cb l :: map cb ls)) as [_|Y]; [|elim Y; left; reflexivity].
      cbn [app]. constructor. apply Permutation_app_head. exact IH.
    - replace (if in_dec Nat.eq_dec c (cb l :: map cb ls) then [e] else []) with (if in_dec Nat.eq_dec c (map cb ls) then [e] else []).
      + rewrite app_assoc. apply (Permutation_trans (l' := (if cb l =? m then [e'] else []) ++ ((if in_dec Nat.eq_dec c (map cb ls) then [e] else []) ++ (if in_dec Nat.eq_dec m (map cb ls) then [e'] else [])))).
        * apply Permutation_app_head. exact IH.
        * rewrite app_assoc. apply Permutation_app_tail. apply Permutation_app_comm.
      + destruct (in_dec Nat.eq_dec c (map cb ls)) as [A|A], (in_dec Nat.eq_dec c (cb l :: map cb ls)) as [B|B]; try reflexivity; [elim B; right; exact A|destruct B; contradiction]. }
  specialize (G all tr H N). destruct (in_dec Nat.eq_dec c (map cb all)); [|contradiction]. destruct (in_dec Nat.eq_dec m (map cb all)); [|contradiction]. exact G.
Qed.

(** ** Cases *)
Example notifier_case :
  listeners (Event 5 :: Reg 2 9 :: Unreg 1 :: Reg 1 8 :: ipcp_h) = [Lst 2 0; Lst 3 0] /\
  snd (reg 2 9 (listeners ipcp_h)) = false /\
  before (listeners ipcp_h) (Lst 1 0) (Lst 3 0) /\
  silent (fun _ _ => []) (listeners ipcp_h) /\
  event (fun l _ => if cb l =? 3 then [Register] else []) 4 (listeners ipcp_h) 1 = Hang.
Proof.
  split; [reflexivity|]. split; [reflexivity|]. split; [exists [], [Lst 2 0], []; reflexivity|]. split; [intros l e _; reflexivity|reflexivity].
Qed.

Print Assumptions notifier_listeners.
Print Assumptions notifier_order.
Print Assumptions notifier_all_alike.
Print Assumptions notifier_once.
Print Assumptions notifier_no_registration.
Print Assumptions notifier_same_order_partial.
Print Assumptions notifier_same_order_refuted.
Print Assumptions notifier_ipcp_ends.
Print Assumptions notifier_ipcp_heard.
