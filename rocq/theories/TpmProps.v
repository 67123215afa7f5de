(** Proofs and theorems about the thread pool (C91). *)
From Coq Require Import NArith List Bool Arith Lia ZifyBool ZifyNat ZifyN Permutation.
From Verif Require Import TpmModel TpmSpec.
Import ListNotations.

Lemma mark_some : forall t b l l', mark t b l = Some l' ->
  exists l1 e l2, l = l1 ++ e :: l2 /\ thr e = t /\ l' = l1 ++ Elt t (kill e) b :: l2.
Proof.
  intros t b l. induction l as [|e l IH]; intros l' H; [discriminate H|]. cbn [mark] in H.
  destruct (Nat.eqb_spec (thr e) t) as [E|E].
  - injection H as <-. exists [], e, l. subst t. repeat split.
  - destruct (mark t b l) as [l0|]; [|discriminate H]. injection H as <-.
    destruct (IH l0 eq_refl) as (l1 & e1 & l2 & A & B & C). exists (e :: l1), e1, l2.
    subst l l0. repeat split; assumption.
Qed.
Lemma mark_none : forall t b l, mark t b l = None -> ~ In t (map thr l).
Proof.
  intros t b l. induction l as [|e l IH]; intros H; [intros []|]. cbn [mark] in H.
  destruct (Nat.eqb_spec (thr e) t) as [E|E]; [discriminate H|].
  destruct (mark t b l); [discriminate H|]. intros [I|I]; [contradiction|]. apply (IH eq_refl I).
Qed.
Lemma kill_some : forall l t l', kill_idle l = Some (t, l') ->
  exists l1 e l2, l = l1 ++ e :: l2 /\ thr e = t /\ busy e = false /\ kill e = false /\
    l' = l1 ++ Elt t true false :: l2.
Proof.
  intros l. induction l as [|e l IH]; intros t l' H; [discriminate H|]. cbn [kill_idle] in H.
  destruct (negb (busy e) && negb (kill e)) eqn:B.
  - injection H as <- <-. apply andb_true_iff in B. destruct B as (B1 & B2).
    apply negb_true_iff in B1, B2. exists [], e, l. rewrite B1. repeat split; assumption.
  - destruct (kill_idle l) as [[u l0]|]; [|discriminate H]. injection H as <- <-.
    destruct (IH u l0 eq_refl) as (l1 & e1 & l2 & A & C & D & F & G). exists (e :: l1), e1, l2.
    subst l l0. repeat split; assumption.
Qed.
Lemma killed_some : forall l t l', first_killed l = Some (t, l') ->
  exists l1 e l2, l = l1 ++ e :: l2 /\ thr e = t /\ kill e = true /\ l' = l1 ++ l2.
Proof.
  intros l. induction l as [|e l IH]; intros t l' H; [discriminate H|]. cbn [first_killed] in H.
  destruct (kill e) eqn:B.
  - injection H as <- <-. exists [], e, l. repeat split; assumption.
  - destruct (first_killed l) as [[u l0]|]; [|discriminate H]. injection H as <- <-.
    destruct (IH u l0 eq_refl) as (l1 & e1 & l2 & A & C & D & F). exists (e :: l1), e1, l2.
    subst l l0. repeat split; assumption.
Qed.
Lemma killed_none : forall l, first_killed l = None -> forall e, In e l -> kill e = false.
Proof.
  intros l. induction l as [|e l IH]; intros H x I; [elim I|]. cbn [first_killed] in H.
  destruct (kill e) eqn:B; [discriminate H|]. destruct (first_killed l) as [[]|]; [discriminate H|].
  destruct I as [<-|I]; [exact B|]. apply (IH eq_refl x I).
Qed.
Lemma fresh_in : forall k n e, In e (fresh n k) <-> (n <= thr e < n + k /\ kill e = false /\ busy e = false).
Proof.
  intros k. induction k as [|k IH]; intros n e; cbn [fresh].
  - split; [intros []|intros (A & _); lia].
  - rewrite in_app_iff, IH. cbn [In]. split.
    + intros [(A & B & C)|[<-|[]]]; cbn; repeat split; try assumption; lia.
    + intros (A & B & C). destruct (Nat.eq_dec (thr e) n) as [E|E].
      * right. left. destruct e as [t ki bu]; cbn in *. subst. reflexivity.
      * left. repeat split; try assumption; lia.
Qed.
Lemma fresh_nodup : forall k n, NoDup (map thr (fresh n k)).
Proof.
  intros k. induction k as [|k IH]; intros n; cbn [fresh]; [constructor|].
  rewrite map_app. cbn [map thr].
  apply (Permutation_NoDup (l := n :: map thr (fresh (S n) k))).
  - rewrite <- Permutation_cons_append. reflexivity.
  - constructor; [|apply IH]. intros I. apply in_map_iff in I. destruct I as (e & E & I).
    apply fresh_in in I. lia.
Qed.
Lemma fresh_len : forall k n, length (fresh n k) = k.
Proof. intros k. induction k as [|k IH]; intros n; cbn [fresh]; [reflexivity|]. rewrite app_length, IH. cbn. lia. Qed.

Lemma upd_same : forall A (f : nat -> A) t v, upd f t v t = v.
Proof. intros. unfold upd. rewrite Nat.eqb_refl. reflexivity. Qed.
Lemma upd_other : forall A (f : nat -> A) t v u, u <> t -> upd f t v u = f u.
Proof. intros. unfold upd. destruct (Nat.eqb_spec u t); [contradiction|reflexivity]. Qed.

(** ** What holds in every history *)
Definition ends (m : mgr) : bool :=
  match m with Joining true | JoinWait true _ | Exited => true | _ => false end.

Record inv (s : st) : Prop := {
  i_nd : NoDup (map thr (pool s));
  i_lt : forall e, In e (pool s) -> thr e < next s;
  i_in : forall t, ph s t <> Gone -> In t (map thr (pool s)) \/ exists b, mg s = JoinWait b t;
  i_new : forall t, next s <= t -> ph s t = Gone /\ cancelled s t = false;
  i_kill : forall e, In e (pool s) -> kill e = cancelled s (thr e);
  i_busy : forall e, In e (pool s) -> ph s (thr e) = Busy -> busy e = true;
  i_flag : forall e, In e (pool s) -> busy e = true -> ph s (thr e) = Busy \/ (ph s (thr e) = Gone /\ cancelled s (thr e) = true);
  i_gone : forall e, In e (pool s) -> ph s (thr e) = Gone -> cancelled s (thr e) = true;
  i_ends : ends (mg s) = true -> (forall e, In e (pool s) -> kill e = true) /\ running s = false;
  i_exit : mg s = Exited -> pool s = [];
  i_join : forall b t, mg s = JoinWait b t -> ~ In t (map thr (pool s)) /\ cancelled s t = true
}.

Lemma nodup_mid : forall (A B : Type) (f : A -> B) l1 e l2, NoDup (map f (l1 ++ e :: l2)) ->
  NoDup (map f (l1 ++ l2)) /\ ~ In (f e) (map f (l1 ++ l2)).
Proof. intros A B f l1 e l2 H. rewrite map_app in *. cbn [map] in H. apply NoDup_remove in H. exact H. Qed.

Lemma inv_init : inv init.
Proof.
  constructor; cbn; try (intros; contradiction); try (intros; discriminate); try constructor; auto.
Qed.

Lemma in_mid : forall (A : Type) (x e e' : A) l1 l2, In x (l1 ++ e' :: l2) -> x = e' \/ In x (l1 ++ e :: l2) /\ In x (l1 ++ l2).
Proof. intros A x e e' l1 l2 H. apply in_app_or in H. cbn [In] in H. rewrite !in_app_iff. cbn [In]. intuition. Qed.
Lemma map_mid : forall l1 e e' l2, thr e' = thr e -> map thr (l1 ++ e' :: l2) = map thr (l1 ++ e :: l2).
Proof. intros l1 e e' l2 H. rewrite !map_app. cbn [map]. rewrite H. reflexivity. Qed.
Lemma other_thr : forall l1 e l2 x, NoDup (map thr (l1 ++ e :: l2)) -> In x (l1 ++ l2) -> thr x <> thr e.
Proof.
  intros l1 e l2 x N I E. apply nodup_mid in N. destruct N as (_ & N). apply N. rewrite <- E. apply in_map. exact I.
Qed.

Section Keep.
Variables (min : N) (inc : nat).

Lemma inv_ph : forall s t p, inv s -> ph s t <> Gone -> p <> Busy -> (p = Gone -> cancelled s t = true) -> (ph s t = Waiting \/ ph s t = Has \/ p = Gone) ->
  inv (set_ph s t p).
Proof.
  intros s t p [] N P G Q. constructor; cbn [set_ph pool cur wrk running mg ph cancelled next]; try assumption.
  - intros u U. apply i_in0. destruct (Nat.eq_dec u t) as [E|E]; [subst u; exact N|rewrite upd_other in U by exact E; exact U].
  - intros u U. destruct (Nat.eq_dec u t) as [E|E]; [subst u; destruct (i_new0 t U); contradiction|].
    rewrite upd_other by exact E. apply i_new0. exact U.
  - intros e I. destruct (Nat.eq_dec (thr e) t) as [E|E]; [rewrite E, upd_same; contradiction|rewrite upd_other by exact E; apply i_busy0; exact I].
  - intros e I B. destruct (Nat.eq_dec (thr e) t) as [E|E]; [|rewrite upd_other by exact E; apply i_flag0; assumption].
    rewrite E, upd_same. destruct Q as [Q|[Q|Q1]]; [| |right; split; [exact Q1|exact (G Q1)]];
      destruct (i_flag0 e I B) as [X|(X & _)]; rewrite E in X; rewrite X in Q; discriminate Q.
  - intros e I X. destruct (Nat.eq_dec (thr e) t) as [E|E]; [rewrite E in *; rewrite upd_same in X; exact (G X)|rewrite upd_other in X by exact E; apply i_gone0; assumption].
Qed.

Lemma inv_mark : forall s t l b p w, inv s -> mark t b (pool s) = Some l -> ph s t <> Gone ->
  (p = Busy /\ b = true \/ p = Waiting /\ b = false) ->
  inv (St l (cur s) w (running s) (mg s) (upd (ph s) t p) (cancelled s) (next s)).
Proof.
  intros s t l b p w [] M N P. destruct (mark_some t b (pool s) l M) as (l1 & e & l2 & A & B & C). rewrite A in *.
  assert (MM : map thr l = map thr (l1 ++ e :: l2)) by (rewrite C; apply map_mid; symmetry; exact B).
  constructor; cbn [pool cur wrk running mg ph cancelled next]; rewrite ?MM; try assumption.
  - intros x I. rewrite C in I. destruct (in_mid _ x e _ l1 l2 I) as [X|(X & _)]; [subst x; cbn [thr]; rewrite <- B|]; apply i_lt0; [|exact X].
    apply in_elt.
  - intros u U. apply i_in0. destruct (Nat.eq_dec u t) as [E|E]; [subst u; exact N|rewrite upd_other in U by exact E; exact U].
  - intros u U. destruct (Nat.eq_dec u t) as [E|E]; [subst u; destruct (i_new0 t U); contradiction|].
    rewrite upd_other by exact E. apply i_new0. exact U.
  - intros x I. rewrite C in I. destruct (in_mid _ x e _ l1 l2 I) as [X|(X & _)]; [|apply i_kill0; exact X].
    subst x. cbn [kill thr]. rewrite <- B. apply i_kill0. apply in_elt.
  - intros x I Q. rewrite C in I. destruct (in_mid _ x e _ l1 l2 I) as [X|(X1 & X2)].
    + subst x. cbn [thr busy] in *. rewrite upd_same in Q. destruct P as [(_ & P)|(P & _)]; [exact P|congruence].
    + pose proof (other_thr l1 e l2 x i_nd0 X2) as O. rewrite upd_other in Q by congruence. apply i_busy0; assumption.
  - intros x I Q. rewrite C in I. destruct (in_mid _ x e _ l1 l2 I) as [X|(X1 & X2)].
    + subst x. cbn [thr busy] in *. rewrite upd_same. destruct P as [(P & _)|(_ & P)]; [left; exact P|congruence].
    + pose proof (other_thr l1 e l2 x i_nd0 X2) as O. rewrite upd_other by congruence. apply i_flag0; assumption.
  - intros x I Q. rewrite C in I. destruct (in_mid _ x e _ l1 l2 I) as [X|(X1 & X2)].
    + subst x. cbn [thr busy] in *. rewrite upd_same in Q. destruct P as [(P & _)|(P & _)]; congruence.
    + pose proof (other_thr l1 e l2 x i_nd0 X2) as O. rewrite upd_other in Q by congruence. apply i_gone0; assumption.
  - intros En. destruct (i_ends0 En) as (E1 & E2). split; [|exact E2]. intros x I. rewrite C in I.
    destruct (in_mid _ x e _ l1 l2 I) as [X|(X1 & X2)]; [subst x; cbn [kill]|]; apply E1; [apply in_elt|exact X1].
  - intros X. pose proof (i_exit0 X) as Y. destruct l1; discriminate Y.
Qed.

(* a worker that is not in the list tells the pool *)
Lemma inv_unmarked : forall s t p, inv s -> ~ In t (map thr (pool s)) -> ph s t <> Gone -> inv (set_ph s t p).
Proof.
  intros s t p [] NI N. constructor; cbn [set_ph pool cur wrk running mg ph cancelled next]; try assumption.
  - intros u U. apply i_in0. destruct (Nat.eq_dec u t) as [E|E]; [subst u; exact N|rewrite upd_other in U by exact E; exact U].
  - intros u U. destruct (Nat.eq_dec u t) as [E|E]; [subst u; destruct (i_new0 t U); contradiction|].
    rewrite upd_other by exact E. apply i_new0. exact U.
  - intros e I. destruct (Nat.eq_dec (thr e) t) as [E|E]; [elim NI; rewrite <- E; apply in_map; exact I|rewrite upd_other by exact E; apply i_busy0; exact I].
  - intros e I B. destruct (Nat.eq_dec (thr e) t) as [E|E]; [elim NI; rewrite <- E; apply in_map; exact I|rewrite upd_other by exact E; apply i_flag0; assumption].
  - intros e I B. destruct (Nat.eq_dec (thr e) t) as [E|E]; [elim NI; rewrite <- E; apply in_map; exact I|rewrite upd_other in B by exact E; apply i_gone0; assumption].
Qed.

Lemma inv_mg : forall s m, inv s -> (forall b t, mg s <> JoinWait b t) -> ends m = ends (mg s) -> m <> Exited ->
  (forall b t, m <> JoinWait b t) -> inv (set_mg s m).
Proof.
  intros s m [] J E X Y. constructor; cbn [set_mg pool cur wrk running mg ph cancelled next]; try assumption.
  - intros t T. destruct (i_in0 t T) as [A|(b & A)]; [left; exact A|elim (J b t A)].
  - rewrite E. exact i_ends0.
  - intros Z. contradiction.
  - intros b t Z. elim (Y b t Z).
Qed.

Lemma existsb_thr : forall t l, existsb (fun e => Nat.eqb (thr e) t) l = true <-> In t (map thr l).
Proof.
  intros t l. rewrite existsb_exists, in_map_iff. split; intros (e & A & B).
  - exists e. apply Nat.eqb_eq in B. split; assumption.
  - exists e. split; [exact B|apply Nat.eqb_eq; exact A].
Qed.

Lemma inv_step : forall s e s', inv s -> step min inc s e = Some s' -> inv s'.
Proof.
  intros s e s' J H. destruct e as [t|t|t|t|t|k| | |]; cbn [step] in H.
  - destruct (ph s t) eqn:P; try discriminate H. injection H as <-. apply inv_ph; try assumption; try congruence. left. exact P.
  - destruct (ph s t) eqn:P; try discriminate H. injection H as <-. apply inv_ph; try assumption; try congruence. right. left. exact P.
  - destruct (ph s t) eqn:P; try discriminate H. cbn [set_ph pool cur wrk running mg ph cancelled next] in H.
    destruct (mark t true (pool s)) as [l|] eqn:M; injection H as <-.
    + apply (inv_mark s t l true Busy); try assumption; [congruence|]. left. split; reflexivity.
    + apply inv_unmarked; [exact J|apply (mark_none t true); exact M|congruence].
  - destruct (ph s t) eqn:P; try discriminate H. cbn [set_ph pool cur wrk running mg ph cancelled next] in H.
    destruct (mark t false (pool s)) as [l|] eqn:M; injection H as <-.
    + apply (inv_mark s t l false Waiting); try assumption; [congruence|]. right. split; reflexivity.
    + apply inv_unmarked; [exact J|apply (mark_none t false); exact M|congruence].
  - destruct (cancelled s t) eqn:C; [|discriminate H].
    destruct (ph s t) eqn:P; try discriminate H; injection H as <-; (apply inv_ph; [exact J|congruence|discriminate|intros _; exact C|right; right; reflexivity]).
  - unfold manager in H. destruct (mg s) as [|b|b t| | |] eqn:M; try discriminate H.
    + destruct (running s) eqn:R; injection H as <-.
      * apply inv_mg; try assumption; rewrite ?M; try reflexivity; try discriminate; intros; discriminate.
      * destruct J. rewrite M in *.
        assert (MM : map thr (kill_all (pool s)) = map thr (pool s)) by (unfold kill_all; rewrite map_map; apply map_ext; reflexivity).
        assert (KI : forall e, In e (kill_all (pool s)) -> kill e = true /\ exists e0, In e0 (pool s) /\ thr e0 = thr e /\ busy e0 = busy e).
        { intros e I. unfold kill_all in I. apply in_map_iff in I. destruct I as (e0 & <- & I). cbn. split; [reflexivity|].
          exists e0. repeat split. exact I. }
        assert (CA : forall e, In e (pool s) -> existsb (fun x => Nat.eqb (thr x) (thr e)) (alive (pool s)) || cancelled s (thr e) = true).
        { intros e I. destruct (kill e) eqn:K; [rewrite <- (i_kill0 e I), K; apply orb_true_r|].
          assert (X : existsb (fun x => Nat.eqb (thr x) (thr e)) (alive (pool s)) = true); [|rewrite X; reflexivity].
          apply existsb_thr. apply in_map. unfold alive. apply filter_In. rewrite K. split; [exact I|reflexivity]. }
        constructor; cbn [pool cur wrk running mg ph cancelled next]; rewrite ?MM; try assumption.
        -- intros e I. destruct (KI e I) as (_ & e0 & E0 & E1 & E2). rewrite <- E1. apply i_lt0. exact E0.
        -- intros t T. destruct (i_in0 t T) as [A|(b & A)]; [left; exact A|discriminate A].
        -- intros t T. destruct (i_new0 t T) as (A & B). split; [exact A|]. rewrite B, orb_false_r.
           destruct (existsb _ (alive (pool s))) eqn:X; [|reflexivity]. apply existsb_thr in X. apply in_map_iff in X.
           destruct X as (e & E1 & E2). unfold alive in E2. apply filter_In in E2. pose proof (i_lt0 e (proj1 E2)). lia.
        -- intros e I. destruct (KI e I) as (K & e0 & E0 & E1 & E2). rewrite K, <- E1. symmetry. apply CA. exact E0.
        -- intros e I. destruct (KI e I) as (K & e0 & E0 & E1 & E2). rewrite <- E1, <- E2. apply i_busy0. exact E0.
        -- intros e I B. destruct (KI e I) as (K & e0 & E0 & E1 & E2). rewrite <- E1.
           destruct (i_flag0 e0 E0) as [X|(X & _)]; [congruence|left; exact X|right; split; [exact X|apply CA; exact E0]].
        -- intros e I B. destruct (KI e I) as (K & e0 & E0 & E1 & E2). rewrite <- E1. apply CA. exact E0.
        -- intros _. split; [|reflexivity]. intros e I. apply KI. exact I.
        -- intros X. discriminate X.
        -- intros b t X. discriminate X.
    + destruct (first_killed (pool s)) as [[t l]|] eqn:F.
      * injection H as <-. destruct (killed_some _ _ _ F) as (l1 & e & l2 & A & B & C & D). destruct J. rewrite A, M in *.
        destruct (nodup_mid _ _ thr l1 e l2 i_nd0) as (N1 & N2).
        assert (SUB : forall x, In x l -> In x (l1 ++ e :: l2)).
        { intros x I. rewrite D in I. rewrite in_app_iff in *. cbn [In]. tauto. }
        constructor; cbn [pool cur wrk running mg ph cancelled next]; try assumption.
        -- rewrite D. exact N1.
        -- intros x I. apply i_lt0, SUB, I.
        -- intros u U. destruct (i_in0 u U) as [X|(b0 & X)]; [|discriminate X].
           rewrite map_app in X. cbn [map] in X. apply in_app_or in X. cbn [In] in X.
           destruct X as [X|[X|X]]; [left; rewrite D, map_app; apply in_or_app; left; exact X|right; exists b; congruence|left; rewrite D, map_app; apply in_or_app; right; exact X].
        -- intros x I. apply i_kill0, SUB, I.
        -- intros x I. apply i_busy0, SUB, I.
        -- intros x I. apply i_flag0, SUB, I.
        -- intros x I. apply i_gone0, SUB, I.
        -- intros En. destruct (i_ends0 En) as (E1 & E2). split; [|exact E2]. intros x I. apply E1, SUB, I.
        -- intros X. discriminate X.
        -- intros b0 t0 X. injection X as -> <-. rewrite <- B. split; [rewrite D; exact N2|]. rewrite <- (i_kill0 e); [exact C|apply in_elt].
      * injection H as <-. pose proof (killed_none _ F) as K. destruct J. rewrite M in *.
        constructor; cbn [set_mg pool cur wrk running mg ph cancelled next]; try assumption.
        -- intros t T. destruct (i_in0 t T) as [X|(b0 & X)]; [left; exact X|discriminate X].
        -- destruct b; [exact i_ends0|intros X; discriminate X].
        -- destruct b; [|intros X; discriminate X]. intros _. destruct (i_ends0 eq_refl) as (E1 & _).
           destruct (pool s) as [|x l]; [reflexivity|]. pose proof (E1 x (or_introl eq_refl)). pose proof (K x (or_introl eq_refl)). congruence.
        -- intros b0 t X. destruct b; discriminate X.
    + destruct (ph s t) eqn:P; try discriminate H. injection H as <-. destruct J. rewrite M in *.
      constructor; cbn [set_mg pool cur wrk running mg ph cancelled next]; try assumption.
      * intros u U. destruct (i_in0 u U) as [X|(b0 & X)]; [left; exact X|]. injection X as -> ->. contradiction.
      * intros X. discriminate X.
      * intros b0 t0 X. discriminate X.
    + destruct (sub64 (cur s) (wrk s) <? min)%N.
      * destruct (k <=? inc) eqn:K; [|discriminate H]. injection H as <-. destruct J. rewrite M in *.
        constructor; cbn [pool cur wrk running mg ph cancelled next].
        -- rewrite map_app. clear - i_nd0 i_lt0. assert (D : forall t, In t (map thr (fresh (next s) k)) -> ~ In t (map thr (pool s))).
           { intros t I X. apply in_map_iff in I. destruct I as (e & E1 & E2). apply fresh_in in E2.
             apply in_map_iff in X. destruct X as (x & X1 & X2). pose proof (i_lt0 x X2). lia. }
           pose proof (fresh_nodup k (next s)) as F. revert F D. generalize (map thr (fresh (next s) k)) as l. clear - i_nd0.
           intros l. induction l as [|a l IH]; intros F D; [exact i_nd0|]. inversion F as [|? ? F1 F2]; subst.
           cbn [app]. constructor; [|apply IH; [exact F2|intros t T; apply D; right; exact T]].
           intros I. apply in_app_or in I. destruct I as [I|I]; [contradiction|]. apply (D a (or_introl eq_refl) I).
        -- intros e I. apply in_app_or in I. destruct I as [I|I]; [apply fresh_in in I; lia|]. pose proof (i_lt0 e I). lia.
        -- intros t T. left. rewrite map_app. apply in_or_app.
           destruct ((next s <=? t) && (t <? next s + k)) eqn:R.
           ++ left. apply in_map_iff. exists (Elt t false false). split; [reflexivity|]. apply fresh_in. cbn. lia.
           ++ right. destruct (i_in0 t T) as [X|(b & X)]; [exact X|discriminate X].
        -- intros t T. destruct ((next s <=? t) && (t <? next s + k)) eqn:R; [lia|]. apply i_new0. lia.
        -- intros e I. apply in_app_or in I. destruct I as [I|I]; [|apply i_kill0; exact I].
           apply fresh_in in I. destruct (i_new0 (thr e)) as (_ & X); [lia|]. rewrite X. apply I.
        -- intros e I Q. apply in_app_or in I. destruct I as [I|I].
           ++ apply fresh_in in I. destruct ((next s <=? thr e) && (thr e <? next s + k)) eqn:R; [discriminate Q|lia].
           ++ pose proof (i_lt0 e I). destruct ((next s <=? thr e) && (thr e <? next s + k)) eqn:R; [discriminate Q|]. apply i_busy0; assumption.
        -- intros e I Q. apply in_app_or in I. destruct I as [I|I].
           ++ apply fresh_in in I. destruct I as (_ & _ & I). congruence.
           ++ pose proof (i_lt0 e I). destruct ((next s <=? thr e) && (thr e <? next s + k)) eqn:R; [lia|]. apply i_flag0; assumption.
        -- intros e I Q. apply in_app_or in I. destruct I as [I|I].
           ++ apply fresh_in in I. destruct ((next s <=? thr e) && (thr e <? next s + k)) eqn:R; [discriminate Q|lia].
           ++ pose proof (i_lt0 e I). destruct ((next s <=? thr e) && (thr e <? next s + k)) eqn:R; [lia|]. apply i_gone0; assumption.
        -- intros X. discriminate X.
        -- intros X. discriminate X.
        -- intros b t X. discriminate X.
      * injection H as <-. apply inv_mg; try assumption; rewrite ?M; try reflexivity; try discriminate; intros; discriminate.
  - destruct (mg s) as [|b|b t| | |] eqn:M; try discriminate H.
    destruct (min <? sub64 (cur s) (wrk s))%N; [destruct (kill_idle (pool s)) as [[t l]|] eqn:K|].
    + injection H as <-. destruct (kill_some _ _ _ K) as (l1 & e & l2 & A & B & C & D & E). destruct J. rewrite A, M in *.
      assert (MM : map thr l = map thr (l1 ++ e :: l2)) by (rewrite E; apply map_mid; symmetry; exact B).
      constructor; cbn [pool cur wrk running mg ph cancelled next]; rewrite ?MM; try assumption.
      * intros x I. rewrite E in I. destruct (in_mid _ x e _ l1 l2 I) as [X|(X & _)]; [subst x; cbn [thr]; rewrite <- B|]; apply i_lt0; [|exact X]. apply in_elt.
      * intros u U. destruct (i_in0 u U) as [X|(b & X)]; [left; exact X|discriminate X].
      * intros u U. destruct (i_new0 u U) as (X & Y). split; [exact X|]. rewrite upd_other; [exact Y|].
        intros Z. pose proof (i_lt0 e (in_elt e l1 l2)). lia.
      * intros x I. rewrite E in I. destruct (in_mid _ x e _ l1 l2 I) as [X|(X1 & X2)]; [subst x; cbn [kill thr]; rewrite upd_same; reflexivity|].
        pose proof (other_thr l1 e l2 x i_nd0 X2) as O. rewrite upd_other by congruence. apply i_kill0. exact X1.
      * intros x I Q. rewrite E in I. destruct (in_mid _ x e _ l1 l2 I) as [X|(X1 & X2)]; [|apply i_busy0; assumption].
        subst x. cbn [thr] in Q. rewrite <- B in Q. pose proof (i_busy0 e (in_elt e l1 l2) Q). congruence.
      * intros x I Q. rewrite E in I. destruct (in_mid _ x e _ l1 l2 I) as [X|(X1 & X2)]; [subst x; discriminate Q|].
        pose proof (other_thr l1 e l2 x i_nd0 X2) as O. rewrite upd_other by congruence. apply i_flag0; assumption.
      * intros x I Q. rewrite E in I. destruct (in_mid _ x e _ l1 l2 I) as [X|(X1 & X2)]; [subst x; cbn [thr]; apply upd_same|].
        pose proof (other_thr l1 e l2 x i_nd0 X2) as O. rewrite upd_other by congruence. apply i_gone0; assumption.
      * intros X. discriminate X.
      * intros X. discriminate X.
      * intros b u X. discriminate X.
    + injection H as <-. apply inv_mg; try assumption; rewrite ?M; try reflexivity; try discriminate; intros; discriminate.
    + injection H as <-. apply inv_mg; try assumption; rewrite ?M; try reflexivity; try discriminate; intros; discriminate.
  - destruct (mg s) as [|b|b t| | |] eqn:M; try discriminate H. injection H as <-.
    apply inv_mg; try assumption; rewrite ?M; try reflexivity; try discriminate; intros; discriminate.
  - destruct (running s) eqn:R; [|discriminate H]. injection H as <-. destruct J.
    constructor; cbn [pool cur wrk running mg ph cancelled next]; try assumption.
    intros En. destruct (i_ends0 En) as (_ & E2). congruence.
Qed.

Lemma inv_run : forall h s, run min inc h = Some s -> inv s.
Proof.
  intros h. induction h as [|e h IH]; intros s H; cbn [run] in H.
  - injection H as <-. exact inv_init.
  - destruct (run min inc h) as [s0|]; [|discriminate H]. apply (inv_step s0 e s (IH s0 eq_refl) H).
Qed.
End Keep.

(** ** The ready workers are the idle elements of the list *)
Definition idle (l : list elt) : list elt := filter (fun e => negb (kill e) && negb (busy e)) l.

Lemma nodup_filter : forall (f : elt -> bool) l, NoDup (map thr l) -> NoDup (map thr (filter f l)).
Proof.
  intros f l. induction l as [|e l IH]; intros H; [constructor|]. cbn [map] in H. inversion H as [|? ? A B]; subst.
  cbn [filter]. destruct (f e); [|apply IH; exact B]. cbn [map]. constructor; [|apply IH; exact B].
  intros I. apply A. apply in_map_iff in I. destruct I as (x & X1 & X2). apply filter_In in X2.
  rewrite <- X1. apply in_map. apply X2.
Qed.

Lemma ready_idle : forall s, inv s -> ready s = length (idle (pool s)).
Proof.
  intros s []. unfold ready. rewrite <- (map_length thr). apply Permutation_length. apply NoDup_Permutation.
  - apply NoDup_filter, seq_NoDup.
  - apply nodup_filter. exact i_nd0.
  - intros t. rewrite filter_In, in_seq. split.
    + intros (A & B). assert (CN : cancelled s t = false) by (destruct (ph s t); try discriminate B; apply negb_true_iff; exact B).
      assert (P : ph s t = Waiting \/ ph s t = Has) by (destruct (ph s t); try discriminate B; auto).
      destruct (i_in0 t) as [I|(b & I)]; [destruct P as [P|P]; rewrite P; discriminate| |].
      * apply in_map_iff in I. destruct I as (e & E1 & E2). apply in_map_iff. exists e. split; [exact E1|].
        unfold idle. apply filter_In. split; [exact E2|]. rewrite (i_kill0 e E2), E1, CN.
        destruct (busy e) eqn:Bz; [|reflexivity]. destruct (i_flag0 e E2 Bz) as [X|(X & _)]; rewrite E1 in X; rewrite X in P; destruct P; discriminate.
      * destruct (i_join0 b t I) as (_ & X). congruence.
    + intros I. apply in_map_iff in I. destruct I as (e & E1 & E2). apply filter_In in E2. destruct E2 as (E2 & E3).
      apply andb_true_iff in E3. destruct E3 as (K & Bz). apply negb_true_iff in K, Bz. subst t.
      pose proof (i_lt0 e E2). split; [lia|]. pose proof (i_kill0 e E2) as KK. rewrite K in KK. rewrite <- KK.
      destruct (ph s (thr e)) eqn:P; try reflexivity.
      * rewrite (i_busy0 e E2 P) in Bz. discriminate Bz.
      * rewrite (i_gone0 e E2 P) in KK. discriminate KK.
Qed.

Lemma pool_le : forall s, inv s -> length (pool s) <= next s.
Proof.
  intros s []. rewrite <- (map_length thr), <- (seq_length (next s) 0). apply NoDup_incl_length; [exact i_nd0|].
  intros t I. apply in_map_iff in I. destruct I as (e & <- & I). apply in_seq. pose proof (i_lt0 e I). lia.
Qed.

(** ** The counters *)
Definition cnt (s : st) : Prop := ends (mg s) = false ->
  cur s = N.of_nat (length (alive (pool s))) /\ wrk s = N.of_nat (length (filter busy (pool s))) /\
  forall e, In e (pool s) -> busy e = true -> kill e = false.

Lemma busy_alive_idle : forall l, (forall e, In e l -> busy e = true -> kill e = false) ->
  length (alive l) = length (filter busy l) + length (idle l).
Proof.
  intros l. induction l as [|e l IH]; intros H; [reflexivity|].
  assert (IH' : length (alive l) = length (filter busy l) + length (idle l)) by (apply IH; intros x X; apply H; right; exact X).
  pose proof (H e (or_introl eq_refl)) as He. unfold alive, idle in *. cbn [filter].
  destruct (kill e) eqn:K, (busy e) eqn:B; cbn [negb andb length]; try lia; discriminate (He eq_refl).
Qed.

Lemma sub_add64 : forall a b, (a + b < W64)%N -> sub64 (a + b) a = b.
Proof.
  intros a b H. unfold sub64. rewrite (N.mod_small a W64) by lia.
  replace (a + b + W64 - a)%N with (b + 1 * W64)%N by lia. rewrite N.mod_add by discriminate. apply N.mod_small. lia.
Qed.
Lemma add64_small : forall a b, (a + b < W64)%N -> add64 a b = (a + b)%N.
Proof. intros a b H. apply N.mod_small. exact H. Qed.
Lemma sub64_1 : forall a, (0 < a)%N -> (a < W64)%N -> sub64 a 1 = (a - 1)%N.
Proof. intros a A B. replace a with (1 + (a - 1))%N at 1 by lia. apply sub_add64. lia. Qed.

Lemma next_mono : forall min inc s e s', step min inc s e = Some s' -> next s <= next s'.
Proof.
  intros min inc s e s' H. destruct e; cbn [step] in H; unfold manager in H;
  repeat match type of H with
  | context [match ?x with _ => _ end] => destruct x; try discriminate H
  end; injection H as <-; cbn [set_ph set_mg next]; lia.
Qed.
Lemma ends_mono : forall min inc s e s', step min inc s e = Some s' -> ends (mg s) = true -> ends (mg s') = true.
Proof.
  intros min inc s e s' H En. destruct e; cbn [step] in H.
  1-5: repeat match type of H with
  | context [match ?x with _ => _ end] => destruct x; try discriminate H
  end; injection H as <-; exact En.
  - unfold manager in H. destruct (mg s) as [|[] |[] t| | |]; try discriminate En; try discriminate H.
    + destruct (first_killed (pool s)) as [[]|]; injection H as <-; reflexivity.
    + destruct (ph s t); try discriminate H. injection H as <-. reflexivity.
  - destruct (mg s) as [|[] |[] t| | |]; try discriminate En; discriminate H.
  - destruct (mg s) as [|[] |[] t| | |]; try discriminate En; discriminate H.
  - destruct (running s); [|discriminate H]. injection H as <-. exact En.
Qed.

Lemma filter_mid : forall (f : elt -> bool) l1 e l2,
  length (filter f (l1 ++ e :: l2)) = length (filter f (l1 ++ l2)) + (if f e then 1 else 0).
Proof.
  intros f l1 e l2. rewrite !filter_app, !app_length. cbn [filter]. destruct (f e); cbn [length]; lia.
Qed.
Lemma filter_le : forall (f : elt -> bool) l, length (filter f l) <= length l.
Proof. intros f l. induction l as [|e l IH]; [apply le_n|]. cbn [filter]. destruct (f e); cbn [length]; lia. Qed.
Lemma fresh_alive : forall k n, alive (fresh n k) = fresh n k /\ filter busy (fresh n k) = [].
Proof.
  intros k. induction k as [|k IH]; intros n; [split; reflexivity|]. destruct (IH (S n)) as (A & B).
  unfold alive in *. cbn [fresh]. rewrite !filter_app, A, B. split; reflexivity.
Qed.

Lemma cnt_step : forall min inc s e s', inv s -> cnt s -> step min inc s e = Some s' ->
  (forall t, e = Dec t -> cancelled s t = false) -> (N.of_nat (next s') < W64)%N -> cnt s'.
Proof.
  intros min inc s e s' J C H TD W En'.
  assert (En : ends (mg s) = false) by (destruct (ends (mg s)) eqn:En; [rewrite (ends_mono _ _ _ _ _ H En) in En'; discriminate En'|reflexivity]).
  pose proof (next_mono _ _ _ _ _ H) as NM. pose proof (pool_le s J) as PL.
  destruct (C En) as (C1 & C2 & C3). destruct e as [t|t|t|t|t|k| | |]; cbn [step] in H.
  - destruct (ph s t); try discriminate H. injection H as <-. repeat split; assumption.
  - destruct (ph s t); try discriminate H. injection H as <-. repeat split; assumption.
  - destruct (ph s t) eqn:P; try discriminate H. cbn [set_ph pool cur wrk running mg ph cancelled next] in H.
    pose proof (TD t eq_refl) as CT.
    destruct (mark t true (pool s)) as [l|] eqn:M; injection H as <-; [|repeat split; assumption].
    destruct (mark_some _ _ _ _ M) as (l1 & x & l2 & A & B & D).
    cbn [pool cur wrk running mg ph cancelled next] in *.
    assert (Bx : busy x = false).
    { destruct (busy x) eqn:Bx; [|reflexivity]. destruct (i_flag s J x) as [X|(X & _)]; [rewrite A; apply in_elt|exact Bx| |]; rewrite B, P in X; discriminate X. }
    assert (Kx : kill x = false) by (rewrite (i_kill s J x), B; [exact CT|rewrite A; apply in_elt]).
    pose proof (filter_le busy (l1 ++ l2)) as FL. rewrite A in *. rewrite app_length in *. cbn [length] in PL.
    unfold alive in *. rewrite filter_mid in C1, C2. rewrite D, !filter_mid. cbn [kill busy] in *. rewrite Kx in *. rewrite Bx in C2.
    split; [exact C1|]. split; [rewrite C2, add64_small; lia|]. intros y I By.
    destruct (in_mid _ y x _ l1 l2 I) as [Y|(Y & _)]; [subst y; reflexivity|]. apply C3; assumption.
  - destruct (ph s t) eqn:P; try discriminate H. cbn [set_ph pool cur wrk running mg ph cancelled next] in H.
    destruct (mark t false (pool s)) as [l|] eqn:M; injection H as <-; [|repeat split; assumption].
    destruct (mark_some _ _ _ _ M) as (l1 & x & l2 & A & B & D).
    cbn [pool cur wrk running mg ph cancelled next] in *.
    assert (Bx : busy x = true) by (apply (i_busy s J); [rewrite A; apply in_elt|rewrite B; exact P]).
    pose proof (filter_le busy (l1 ++ l2)) as FL. rewrite A in *. rewrite app_length in *. cbn [length] in PL.
    unfold alive in *. rewrite filter_mid in C1, C2. rewrite D, !filter_mid. cbn [kill busy] in *. rewrite Bx in C2.
    split; [exact C1|]. split; [rewrite C2, sub64_1; lia|]. intros y I By.
    destruct (in_mid _ y x _ l1 l2 I) as [Y|(Y & _)]; [subst y; discriminate By|]. apply C3; assumption.
  - destruct (cancelled s t); [|discriminate H]. destruct (ph s t); try discriminate H; injection H as <-; repeat split; assumption.
  - unfold manager in H. destruct (mg s) as [|b|b t| | |] eqn:M; try discriminate H.
    + destruct (running s); injection H as <-; [repeat split; assumption|discriminate En'].
    + destruct (first_killed (pool s)) as [[t l]|] eqn:F; injection H as <-; [|repeat split; assumption].
      destruct (killed_some _ _ _ F) as (l1 & x & l2 & A & B & K & D). cbn [pool cur wrk running mg ph cancelled next] in *.
      assert (Bx : busy x = false).
      { destruct (busy x) eqn:Bx; [|reflexivity]. rewrite (C3 x) in K; [discriminate K|rewrite A; apply in_elt|exact Bx]. }
      unfold alive in *. rewrite A, filter_mid in C1, C2. rewrite K in C1. rewrite Bx in C2. cbn [negb] in C1. rewrite D, C1, C2.
      split; [f_equal; lia|]. split; [f_equal; lia|]. intros y I. apply C3. rewrite A. apply in_app_or in I. rewrite in_app_iff. cbn [In]. tauto.
    + destruct (ph s t); try discriminate H. injection H as <-. repeat split; assumption.
    + destruct (sub64 (cur s) (wrk s) <? min)%N; [destruct (k <=? inc); [|discriminate H]|]; injection H as <-; [|repeat split; assumption].
      cbn [pool cur wrk running mg ph cancelled next] in *. pose proof (filter_le (fun e => negb (kill e)) (pool s)) as FL.
      destruct (fresh_alive k (next s)) as (F1 & F2). unfold alive in *. rewrite !filter_app, F1, F2, app_length, fresh_len.
      cbn [app]. split; [rewrite C1, add64_small; lia|]. split; [exact C2|]. intros y I By. apply in_app_or in I.
      destruct I as [I|I]; [apply fresh_in in I; destruct I as (_ & _ & I); congruence|]. apply C3; assumption.
  - destruct (mg s) eqn:M; try discriminate H.
    destruct (min <? sub64 (cur s) (wrk s))%N; [destruct (kill_idle (pool s)) as [[t l]|] eqn:K|]; injection H as <-; try (repeat split; assumption).
    destruct (kill_some _ _ _ K) as (l1 & x & l2 & A & B & Bx & Kx & D). cbn [pool cur wrk running mg ph cancelled next] in *.
    pose proof (filter_le (fun e => negb (kill e)) (pool s)) as FL. rewrite A in FL.
    unfold alive in *. rewrite A, filter_mid in C1, C2. rewrite filter_mid in FL. rewrite Kx in *. rewrite Bx in C2. cbn [negb] in *.
    rewrite A in PL. rewrite D, !filter_mid. cbn [kill busy negb]. split; [rewrite C1, sub64_1 by lia; lia|]. split; [rewrite C2; reflexivity|].
    intros y I By. destruct (in_mid _ y x _ l1 l2 I) as [Y|(Y & _)]; [subst y; discriminate By|]. apply C3; [rewrite A; exact Y|exact By].
  - destruct (mg s); try discriminate H. injection H as <-. repeat split; assumption.
  - destruct (running s); [|discriminate H]. injection H as <-. repeat split; assumption.
Qed.

Lemma cnt_run : forall min inc h s, run min inc h = Some s -> timely min inc h -> (N.of_nat (next s) < W64)%N -> cnt s.
Proof.
  intros min inc h. induction h as [|e h IH]; intros s H T W; cbn [run] in H.
  - injection H as <-. intros _. repeat split; try reflexivity. intros e [].
  - cbn [timely] in T. destruct (run min inc h) as [s0|] eqn:R; [|discriminate H]. destruct T as (T1 & T2).
    pose proof (next_mono _ _ _ _ _ H). apply (cnt_step min inc s0 e s); try assumption.
    + apply (inv_run min inc h). exact R.
    + apply (IH s0 eq_refl T1). lia.
    + intros t ->. exact T2.
Qed.

Lemma not_ended : forall min inc h s, run min inc h = Some s -> not_stopped h -> ends (mg s) = false /\ running s = true.
Proof.
  intros min inc h s H N. assert (R : running s = true).
  { revert s H N. induction h as [|e h IH]; intros s H N; cbn [run] in H; [injection H as <-; reflexivity|].
    destruct (run min inc h) as [s0|]; [|discriminate H].
    assert (R0 : running s0 = true) by (apply IH; [reflexivity|intros I; apply N; right; exact I]).
    destruct e; cbn [step] in H; unfold manager in H;
    repeat match type of H with
    | context [match ?x with _ => _ end] => destruct x eqn:?; try discriminate H
    end; try (injection H as <-; cbn [set_ph set_mg running]; congruence).
    all: elim N; left; reflexivity. }
  split; [|exact R]. destruct (ends (mg s)) eqn:E; [|reflexivity].
  destruct (i_ends s (inv_run min inc h s H) E) as (_ & X). congruence.
Qed.

Lemma idle_count : forall min inc h s, run min inc h = Some s -> not_stopped h -> timely min inc h -> (N.of_nat (next s) < W64)%N ->
  sub64 (cur s) (wrk s) = N.of_nat (ready s).
Proof.
  intros min inc h s H N T W. destruct (not_ended _ _ _ _ H N) as (E & _). pose proof (inv_run _ _ _ _ H) as J.
  destruct (cnt_run _ _ _ _ H T W E) as (C1 & C2 & C3). rewrite (ready_idle s J), C1, C2, (busy_alive_idle _ C3).
  rewrite Nat2N.inj_add. apply sub_add64. pose proof (pool_le s J). pose proof (busy_alive_idle _ C3).
  pose proof (filter_le (fun e => negb (kill e)) (pool s)). unfold alive in *. lia.
Qed.

(** ** The pool grows when fewer than [min] workers are ready *)

(** When the manager looks, it starts new workers if and only if fewer than
    [min] are ready: as long as no worker that was told to end has announced
    a request, and fewer than 2^64 workers were ever started.  [k] is how
    many of the [inc] the system lets it start. *)
Theorem tpm_grows_partial : forall min inc h s k s',
  run min inc h = Some s -> not_stopped h -> timely min inc h -> (N.of_nat (next s) < 2 ^ 64)%N ->
  mg s = Grow -> step min inc s (Go k) = Some s' ->
  ((N.of_nat (ready s) < min)%N -> k <= inc /\ next s' = next s + k /\ ready s' = ready s + k) /\
  ((min <= N.of_nat (ready s))%N -> next s' = next s /\ ready s' = ready s).
Proof.
  intros min inc h s k s' H N T W M S. pose proof (idle_count _ _ _ _ H N T W) as IC. pose proof (inv_run _ _ _ _ H) as J.
  pose proof (inv_step _ _ _ _ _ J S) as J'. cbn [step] in S. unfold manager in S. rewrite M, IC in S.
  rewrite !ready_idle in * by assumption.
  destruct (N.ltb_spec (N.of_nat (length (idle (pool s)))) min) as [L|L].
  - destruct (Nat.leb_spec k inc) as [K|K]; [|discriminate S]. injection S as <-. cbn [pool next]. split; [intros _|intros Q; lia].
    split; [exact K|]. split; [reflexivity|]. unfold idle. rewrite filter_app, app_length.
    replace (filter _ (fresh (next s) k)) with (fresh (next s) k); [rewrite fresh_len; lia|].
    clear. generalize (next s) as n. induction k as [|k IH]; intros n; [reflexivity|]. cbn [fresh]. rewrite filter_app, <- IH. reflexivity.
  - injection S as <-. split; [intros Q; lia|]. intros _. split; reflexivity.
Qed.

(** A time-out of the manager tells a worker to end only if [min] others
    stay ready. *)
Theorem tpm_shrinks_partial : forall min inc h s s',
  run min inc h = Some s -> not_stopped h -> timely min inc h -> (N.of_nat (next s) < 2 ^ 64)%N ->
  step min inc s Timeout = Some s' -> ready s' < ready s -> (min <= N.of_nat (ready s'))%N /\ ready s = S (ready s').
Proof.
  intros min inc h s s' H N T W S L. pose proof (idle_count _ _ _ _ H N T W) as IC. pose proof (inv_run _ _ _ _ H) as J.
  pose proof (inv_step _ _ _ _ _ J S) as J'. cbn [step] in S. rewrite IC in S. rewrite !ready_idle in * by assumption.
  destruct (mg s); try discriminate S. destruct (N.ltb_spec min (N.of_nat (length (idle (pool s))))) as [G|G].
  - destruct (kill_idle (pool s)) as [[t l]|] eqn:K; injection S as <-; [|cbn [set_mg pool] in L; lia].
    destruct (kill_some _ _ _ K) as (l1 & x & l2 & A & B & Bx & Kx & D). cbn [pool] in *. unfold idle in *. rewrite A in *.
    rewrite D in *. rewrite !filter_mid in *. cbn [kill busy] in *. rewrite Bx, Kx in *. cbn [negb andb] in *. lia.
  - injection S as <-. cbn [set_mg pool] in L. lia.
Qed.

(** ** No worker is told to end while it serves a request *)

(** Whatever happened before: the manager of a pool that runs does not pick a
    worker that has announced its request. *)
Theorem tpm_busy_not_cancelled : forall min inc h s e s' t,
  run min inc h = Some s -> not_stopped h -> e <> Stop ->
  step min inc s e = Some s' -> ph s t = Busy -> cancelled s t = false -> cancelled s' t = false.
Proof.
  intros min inc h s e s' t H N NS S P C. pose proof (inv_run _ _ _ _ H) as J. destruct (not_ended _ _ _ _ H N) as (E & R).
  destruct e; cbn [step] in S; try (
    repeat match type of S with
    | context [match ?x with _ => _ end] => match x with
        | kill_idle _ => fail 1 | _ => destruct x; try discriminate S end
    end; try (injection S as <-; exact C)).
  - unfold manager in S. rewrite R in S.
    repeat match type of S with
    | context [match ?x with _ => _ end] => destruct x; try discriminate S
    end; injection S as <-; exact C.
  - destruct (kill_idle (pool s)) as [[u l]|] eqn:K; injection S as <-; [|exact C]. cbn [cancelled].
    destruct (kill_some _ _ _ K) as (l1 & x & l2 & A & B & Bx & Kx & D). rewrite upd_other; [exact C|].
    intros U. rewrite U, <- B in P. rewrite (i_busy s J x) in Bx; [discriminate Bx|rewrite A; apply in_elt|exact P].
Qed.

(** So, as long as no worker that was told to end has announced a request, no
    worker of a pool that runs ends in the middle of one. *)
Lemma phase_eq_busy : forall p : phase, p = Busy \/ p <> Busy.
Proof. intros p. destruct p; [right|right|left|right]; try reflexivity; discriminate. Qed.
Lemma cancelled_idle : forall min inc h s, run min inc h = Some s -> not_stopped h -> timely min inc h ->
  forall t, cancelled s t = true -> ph s t <> Busy.
Proof.
  intros min inc h. induction h as [|e h IH]; intros s H N T t C P; cbn [run] in H.
  - injection H as <-. discriminate C.
  - cbn [timely] in T. destruct (run min inc h) as [s0|] eqn:R; [|discriminate H]. destruct T as (T1 & T2).
    assert (N0 : not_stopped h) by (intros I; apply N; right; exact I).
    assert (NS : e <> Stop) by (intros ->; apply N; left; reflexivity).
    specialize (IH s0 eq_refl N0 T1 t).
    destruct (cancelled s0 t) eqn:C0.
    + specialize (IH eq_refl). destruct e; cbn [step] in H; unfold manager in H;
      repeat match type of H with
      | context [match ?x with _ => _ end] => destruct x eqn:?; try discriminate H
      end; injection H as <-; cbn [set_ph set_mg ph] in P; try contradiction.
      all: try (destruct (Nat.eq_dec t t0) as [Q|Q]; [subst t0; rewrite ?upd_same in P; congruence|rewrite upd_other in P by exact Q; contradiction]).
      all: destruct ((next s0 <=? t) && (t <? next s0 + k)); [discriminate P|contradiction].
    + destruct (phase_eq_busy (ph s0 t)) as [Q|Q].
      * rewrite (tpm_busy_not_cancelled min inc h s0 e s t R N0 NS H Q C0) in C. discriminate C.
      * (* newly cancelled and newly busy in one step: impossible *)
        destruct (not_ended _ _ _ _ R N0) as (_ & RR).
        destruct e; cbn [step] in H; unfold manager in H; rewrite ?RR in H;
        repeat match type of H with
        | context [match ?x with _ => _ end] => destruct x eqn:?; try discriminate H
        end; injection H as <-; cbn [set_ph set_mg ph cancelled] in P, C; try congruence.
Qed.
Theorem tpm_no_request_lost_partial : forall min inc h s t s',
  run min inc h = Some s -> not_stopped h -> timely min inc h ->
  step min inc s (Die t) = Some s' -> ph s t = Waiting.
Proof.
  intros min inc h s t s' H N T S. cbn [step] in S. destruct (cancelled s t) eqn:C; [|discriminate S].
  pose proof (cancelled_idle _ _ _ _ H N T t C). destruct (ph s t); try discriminate S; [reflexivity|contradiction].
Qed.

(** Without that condition a worker does end in the middle of a request: the
    manager picks it between its taking the request and its announcing it. *)
Definition lost_h : list ev :=
  rev [Go 0; Go 0; Go 8; Request 0; Dec 0; Signal; Go 0; Go 0; Go 8; Inc 0; Request 15; Timeout; Dec 15].
Definition is_stop (e : ev) : bool := match e with Stop => true | _ => false end.
Lemma no_stop : forall h, existsb is_stop h = false -> not_stopped h.
Proof.
  intros h H I. assert (X : existsb is_stop h = true) by (apply existsb_exists; exists Stop; split; [exact I|reflexivity]).
  congruence.
Qed.
Definition is_busy (p : phase) : bool := match p with Busy => true | _ => false end.
Lemma busy_is : forall p, is_busy p = true -> p = Busy.
Proof. intros p H. destruct p; try discriminate H. reflexivity. Qed.
Theorem tpm_no_request_lost_refuted :
  ~ (forall h s t s', run 8 8 h = Some s -> not_stopped h -> step 8 8 s (Die t) = Some s' -> ph s t = Waiting).
Proof.
  intros F. assert (W : match run 8 8 lost_h with
                        | Some s => cancelled s 15 && is_busy (ph s 15)
                        | None => false end = true) by (vm_compute; reflexivity).
  destruct (run 8 8 lost_h) as [s|] eqn:R; [|discriminate W].
  apply andb_true_iff in W. destruct W as (W1 & W2). apply busy_is in W2.
  assert (P : ph s 15 = Waiting); [|congruence].
  apply (F lost_h s 15 (set_ph s 15 Gone) R); [apply no_stop; vm_compute; reflexivity|].
  cbn [step]. rewrite W1, W2. reflexivity.
Qed.

(** ** A pool that has lost count does not grow *)

(** That worker stays counted as busy for ever.  When then all the others
    get busy before the manager looks, it sees more workers at work than
    there are, takes the difference of the two unsigned numbers and starts
    nobody, although nobody is ready. *)
Definition burst (n : nat) : list ev := flat_map (fun t => [Request t; Dec t]) (seq 0 n).
Definition stuck_h : list ev :=
  rev (burst 15 ++ [Signal; Go 0; Go 0]) ++ [Go 0; Go 0; Go 0; Die 15; Go 0; Go 0] ++ lost_h.
Definition stuck (s : st) : bool :=
  match mg s with Grow => true | _ => false end && (ready s =? 0) && (cur s =? 15)%N && (wrk s =? 16)%N && (next s =? 16).
Theorem tpm_grows_refuted :
  ~ (forall h s s', run 8 8 h = Some s -> not_stopped h -> (N.of_nat (next s) < 2 ^ 64)%N ->
       mg s = Grow -> ready s = 0 -> step 8 8 s (Go 8) = Some s' -> ready s' = 8).
Proof.
  intros F. assert (W : match run 8 8 stuck_h with Some s => stuck s | None => false end = true) by (vm_compute; reflexivity).
  destruct (run 8 8 stuck_h) as [s|] eqn:R; [|discriminate W]. unfold stuck in W.
  destruct (mg s) eqn:M; try discriminate W.
  apply andb_true_iff in W. destruct W as (W & W4). apply andb_true_iff in W. destruct W as (W & W3).
  apply andb_true_iff in W. destruct W as (W & W2). cbn [andb] in W.
  apply Nat.eqb_eq in W, W4. apply N.eqb_eq in W2, W3.
  assert (X : ready (set_mg s MWait) = 8); [|unfold ready in *; cbn [set_mg ph cancelled next] in X; congruence].
  apply (F stuck_h s (set_mg s MWait) R).
  - apply no_stop. vm_compute. reflexivity.
  - rewrite W4. reflexivity.
  - exact M.
  - exact W.
  - cbn [step]. unfold manager. rewrite M, W2, W3. reflexivity.
Qed.

(** And it stays so for as long as the workers stay at work, however often
    the manager wakes up. *)
Definition mgr_only (e : ev) : Prop := match e with Go _ | Timeout | Signal => True | _ => False end.
Theorem tpm_exhausted_stays : forall min inc h s h' s',
  run min inc h = Some s -> not_stopped h -> ready s = 0 ->
  (min <= sub64 (cur s) (wrk s))%N ->
  Forall mgr_only h' -> run min inc (h' ++ h) = Some s' ->
  ready s' = 0 /\ next s' = next s.
Proof.
  intros min inc h s h' s' H N R0 B F. revert s'.
  assert (K : forall s', run min inc (h' ++ h) = Some s' ->
     ready s' = 0 /\ next s' = next s /\ cur s' = cur s /\ wrk s' = wrk s /\ not_stopped (h' ++ h));
    [|intros s' S; destruct (K s' S) as (A & C & _); split; assumption].
  induction F as [|e h' Fe F IH]; intros s' S.
  - cbn [app] in S. rewrite H in S. injection S as <-. repeat split; assumption.
  - cbn [app run] in S. destruct (run min inc (h' ++ h)) as [s0|] eqn:R; [|discriminate S].
    destruct (IH s0 eq_refl) as (A & C & D & E & G). rewrite <- C, <- D, <- E in *. clear IH.
    pose proof (inv_run _ _ _ _ R) as J. pose proof (inv_step _ _ _ _ _ J S) as J'.
    destruct (not_ended _ _ _ _ R G) as (_ & RR).
    assert (NS : not_stopped ((e :: h') ++ h)).
    { intros [I|I]; [subst e; elim Fe|exact (G I)]. }
    rewrite !ready_idle in * by assumption. apply length_zero_iff_nil in A.
    assert (KI : kill_idle (pool s0) = None).
    { destruct (kill_idle (pool s0)) as [[t l]|] eqn:K; [|reflexivity]. destruct (kill_some _ _ _ K) as (l1 & x & l2 & P & Q & Bx & Kx & _).
      assert (I : In x (idle (pool s0))) by (apply filter_In; split; [rewrite P; apply in_elt|rewrite Kx, Bx; reflexivity]).
      rewrite A in I. elim I. }
    destruct e; try (elim Fe; fail); cbn [step] in S.
    + unfold manager in S. rewrite RR in S. destruct (mg s0) as [|b|b t| | |]; try discriminate S.
      * injection S as <-. repeat split; try assumption. cbn [set_mg pool]. rewrite A. reflexivity.
      * destruct (first_killed (pool s0)) as [[t l]|] eqn:FK; injection S as <-; repeat split; try assumption; cbn [set_mg pool]; [|rewrite A; reflexivity].
        destruct (killed_some _ _ _ FK) as (l1 & x & l2 & P & Q & Kx & L). rewrite L. unfold idle in *. rewrite P in A.
        rewrite filter_app in *. cbn [filter] in A. rewrite Kx in A. cbn [negb andb] in A. rewrite A. reflexivity.
      * destruct (ph s0 t); try discriminate S. injection S as <-. repeat split; try assumption. cbn [set_mg pool]. rewrite A. reflexivity.
      * destruct (N.ltb_spec (sub64 (cur s0) (wrk s0)) min) as [L|L]; [exfalso; apply (N.lt_irrefl min); apply (N.le_lt_trans _ _ _ B L)|].
        injection S as <-. repeat split; try assumption. cbn [set_mg pool]. rewrite A. reflexivity.
    + destruct (mg s0); try discriminate S. rewrite KI in S. destruct (min <? sub64 (cur s0) (wrk s0))%N; injection S as <-;
        repeat split; try assumption; cbn [set_mg pool]; rewrite A; reflexivity.
    + destruct (mg s0); try discriminate S. injection S as <-. repeat split; try assumption. cbn [set_mg pool]. rewrite A. reflexivity.
Qed.
(** The pool of [stuck_h] is such a pool. *)
Example tpm_exhausted_case : match run 8 8 stuck_h with
  | Some s => (ready s =? 0) && (8 <=? sub64 (cur s) (wrk s))%N
  | None => false end = true /\ existsb is_stop stuck_h = false.
Proof. vm_compute. split; reflexivity. Qed.

(** ** A pool that is stopped ends only after all its workers *)
Theorem tpm_stop_joins : forall min inc h s, run min inc h = Some s -> mg s = Exited ->
  pool s = [] /\ workers s = 0 /\ In Stop h.
Proof.
  intros min inc h s H X. pose proof (inv_run _ _ _ _ H) as J. pose proof (i_exit s J X) as P.
  split; [exact P|]. split.
  - unfold workers. replace (filter _ _) with (@nil nat); [reflexivity|]. symmetry.
    assert (G : forall t, ph s t = Gone).
    { intros t. destruct (ph s t) eqn:E; try reflexivity; (destruct (i_in s J t) as [I|(b & I)];
        [congruence|rewrite P in I; elim I|congruence]). }
    generalize (seq 0 (next s)) as l. intros l. induction l as [|a l IH]; [reflexivity|]. cbn [filter]. rewrite G. exact IH.
  - destruct (in_dec (fun a b : bool => bool_dec a b) true (map (fun e => match e with Stop => true | _ => false end) h)) as [I|I].
    + apply in_map_iff in I. destruct I as (e & E & I). destruct e; try discriminate E. exact I.
    + destruct (not_ended min inc h s H) as (E & _); [|rewrite X in E; discriminate E].
      intros Q. apply I. apply in_map_iff. exists Stop. split; [reflexivity|exact Q].
Qed.

(** ** Cases *)
(* one worker gets busy, the pool grows to sixteen, shrinks to fifteen, and is stopped while a request is served *)
Definition full_h : list ev :=
  rev ([Go 0; Go 0; Go 8; Request 0; Dec 0; Signal; Go 0; Go 0; Go 8; Inc 0; Timeout; Go 0; Go 0; Die 15; Go 0; Go 0; Go 0;
        Request 3; Dec 3; Stop; Signal; Go 0; Go 0] ++
       concat (map (fun t => [Die t; Go 0; Go 0]) [14; 13; 12; 11; 10; 9; 8; 7; 6; 5; 4; 3; 2; 1; 0])).
Definition before (h : list ev) (n : nat) : list ev := rev (firstn n (rev h)).
Definition timelyb (min : N) (inc : nat) : list ev -> bool :=
  fix go h := match h with
  | [] => true
  | e :: h => go h && match e, run min inc h with Dec t, Some s => negb (cancelled s t) | _, _ => true end
  end.
Lemma timelyb_ok : forall min inc h, timelyb min inc h = true -> timely min inc h.
Proof.
  intros min inc h. induction h as [|e h IH]; intros H; [exact I|]. cbn [timelyb] in H. apply andb_true_iff in H. destruct H as (A & B).
  split; [apply IH; exact A|]. destruct e; try exact I. destruct (run min inc h); [|exact I]. apply negb_true_iff. exact B.
Qed.
Example tpm_life :
  (match run 8 8 full_h with Some s => match mg s with Exited => workers s =? 0 | _ => false end | None => false end = true) /\
  (match run 8 8 (before full_h 8) with
   | Some s => match mg s with Grow => ready s =? 7 | _ => false end | None => false end = true) /\
  (match run 8 8 (before full_h 10), run 8 8 (before full_h 11) with
   | Some s, Some s' => (ready s =? 16) && (ready s' =? 15) | _, _ => false end = true) /\
  timely 8 8 full_h.
Proof. split; [|split; [|split]]; [vm_compute; reflexivity| | |apply timelyb_ok]; vm_compute; reflexivity. Qed.

Print Assumptions tpm_grows_partial.
Print Assumptions tpm_grows_refuted.
Print Assumptions tpm_exhausted_stays.
Print Assumptions tpm_shrinks_partial.
Print Assumptions tpm_busy_not_cancelled.
Print Assumptions tpm_no_request_lost_partial.
Print Assumptions tpm_no_request_lost_refuted.
Print Assumptions tpm_stop_joins.
