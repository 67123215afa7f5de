(** C106: what is acquired is released once, an attempt that fails leaves no trace,
    and nothing is taken away from a running thread. *)
From Coq Require Import List Arith Bool Lia.
From Verif Require Import BootModel BootSpec BootProofs.
Import ListNotations.

(** The start of the process. *)
Definition v_start : view := View [RibInfo] [CmNotif] [] 0 [CEnr] false false false.
Definition is_start (v : view) : bool :=
  match v with
  | View [RibInfo] [CmNotif] [] 0 [CEnr] false false false => true
  | _ => false
  end.
Lemma is_start_eq : forall v, is_start v = true -> v = v_start.
Proof.
  intros [rib notif comps ids named en cm dht] H. cbn in H.
  repeat match type of H with context [match ?x with _ => _ end] => destruct x; try discriminate H end.
  reflexivity.
Qed.
Definition start_check (x : option (bool * view) * list ev) : bool :=
  match fst x with
  | None => false
  | Some (true, v) => is_start v && same_ok [] (held [] (snd x)) idle && rel_ok [] [] (snd x)
                      && made_ok [] (snd x) && comp_ok needs [] [] (snd x) && comp_ok bneeds [] [] (snd x)
  | Some (false, _) => same_ok [Log; SockFile] (held [] (snd x)) [] && rel_ok [Tpm] [] (snd x)
                       && comp_ok needs [] [] (snd x) && told_ok [] (snd x)
                       && (existsb (fun e => match e with Got Notif => true | _ => false end) (snd x) || rel_ok [] [] (snd x))
                       && (negb (existsb (fun e => match e with Got Tpm => true | _ => false end) (snd x)) || same_ok [] (held [] (snd x)) [])
  end.
Lemma start_all : forallb start_check (paths (main_start view0)) = true.
Proof. vm_compute. reflexivity. Qed.
Lemma started_eq : forall v, started v -> v = v_start.
Proof.
  intros v [ans [es [rest R]]]. pose proof (paths_all _ _ _ start_all _ _ _ _ R) as H.
  unfold start_check in H. cbn [fst] in H. rewrite !andb_true_iff in H.
  apply is_start_eq. tauto.
Qed.
Lemma ex_got : forall r (f : ev -> bool) es, (forall e, f e = true -> e = Got r) -> existsb f es = true -> In (Got r) es.
Proof.
  intros r f es F H. apply existsb_exists in H. destruct H as [e [I E]]. rewrite <- (F e E). exact I.
Qed.

(** Starting never fails an assertion.  If it succeeds, the process holds exactly what
    an idle process holds, nothing was released or made twice and nothing lacked
    what it needs.  If it fails, all is released but the log and the file of the socket
    (both too, if all of ipcp_init went well), nothing is released twice but
    the thread pool (not even that, if the failure is in ipcp_init), and threads
    are told to stop before they are waited for. *)
Theorem process_starts_partial : forall ans o es rest, run (main_start view0) ans = (o, es, rest) ->
  o <> None /\
  (forall v, o = Some (true, v) -> same (held [] es) idle /\ released_once [] es /\ made_once [] es /\ complete needs [] es) /\
  (forall v, o = Some (false, v) ->
     same_but [Log; SockFile] (held [] es) [] /\ released_once_but [Tpm] [] es /\ complete needs [] es /\ told es /\
     (~ In (Got Notif) es -> released_once [] es) /\ (In (Got Tpm) es -> same (held [] es) [])).
Proof.
  intros ans o es rest R. pose proof (paths_all _ _ _ start_all _ _ _ _ R) as H.
  unfold start_check in H. cbn [fst snd] in H.
  destruct o as [[[|] v0]|]; [| |discriminate H]; rewrite !andb_true_iff in H.
  - destruct H as [[[[[H1 H2] H3] H4] H5] H6]. split; [discriminate|]. split; [|intros v E; discriminate E].
    intros v E. split; [apply same_but_nil, same_ok_sound; exact H2|].
    split; [apply rel_ok_sound; exact H3|]. split; [apply made_ok_sound; exact H4|].
    apply comp_ok_sound; [apply whole_nil|exact H5].
  - destruct H as [[[[[H1 H2] H3] H4] H5] H6]. split; [discriminate|]. split; [intros v E; discriminate E|].
    intros v E. split; [apply same_ok_sound; exact H1|].
    split; [apply rel_ok_sound; exact H2|]. split; [apply comp_ok_sound; [apply whole_nil|exact H3]|].
    split; [apply told_ok_sound; exact H4|]. split.
    + intros N. apply orb_true_iff in H5. destruct H5 as [H5|H5]; [|apply rel_ok_sound; exact H5].
      elim N. refine (ex_got Notif _ es _ H5). intros [r|r|r] K; try discriminate K. destruct r; try discriminate K; reflexivity.
    + intros I. apply orb_true_iff in H6. destruct H6 as [H6|H6]; [|apply same_but_nil, same_ok_sound; exact H6].
      apply negb_true_iff in H6. assert (C : existsb (fun e => match e with Got Tpm => true | _ => false end) es = true).
      { apply existsb_exists. exists (Got Tpm). split; [exact I|reflexivity]. }
      congruence.
Qed.
Print Assumptions process_starts_partial.

(** If the IRMd does not answer at the end of the start, the thread pool is
    destroyed twice. *)
Definition start_refused : list bool := repeat true 18 ++ [false].
Theorem start_pool_refuted : ~ (forall ans o es rest, run (main_start view0) ans = (o, es, rest) -> released_once [] es).
Proof.
  intros H. specialize (H start_refused _ _ _ eq_refl).
  assert (E : forall es, released_once [] es -> rel_ok [] [] es = true).
  { intros es R. assert (G : forall t p, p ++ t = es -> rel_ok [] (held [] p) t = true).
    { induction t as [|e t IH]; intros p P; [reflexivity|]. destruct e as [x|x|x]; cbn.
      - specialize (IH (p ++ [Got x])). rewrite <- app_assoc in IH. specialize (IH P). rewrite held_app in IH. exact IH.
      - specialize (IH (p ++ [Gone x])). rewrite <- app_assoc in IH. specialize (IH P). rewrite held_app in IH.
        rewrite (proj2 (mem_In x (held [] p))); [exact IH|]. exact (R p x t (eq_sym P) (fun F => F)).
      - specialize (IH (p ++ [Cancel x])). rewrite <- app_assoc in IH. specialize (IH P). rewrite held_app in IH. exact IH. }
    exact (G es [] eq_refl). }
  apply E in H. vm_compute in H. discriminate H.
Qed.
Print Assumptions start_pool_refuted.
(** A start that fails in ipcp_init leaves the file of its socket. *)
Theorem start_file_refuted : ~ (forall ans v es rest, run (main_start view0) ans = (Some (false, v), es, rest) -> ~ In SockFile (held [] es)).
Proof.
  intros H. specialize (H [true; true; true; false] _ _ _ eq_refl). apply H. apply mem_In. vm_compute. reflexivity.
Qed.
Print Assumptions start_file_refuted.

(** The loops that make one thing of each number: any number of things. *)
Lemma run_bind : forall A B (p : prog A) (f : A -> prog B) ans,
  run (pbind p f) ans =
  match run p ans with
  | (Some a, es, rest) => let '(o, es', rest') := run (f a) rest in (o, es ++ es', rest')
  | (None, es, rest) => (None, es, rest)
  end.
Proof.
  induction p as [a|r k IH|k IH|e q IH|]; intros f ans; cbn.
  - destruct (run (f a) ans) as [[o es'] rest']. reflexivity.
  - destruct ans as [|[|] t]; try (rewrite IH; destruct (run (k true) _) as [[[a|] es] rest]; cbn; [destruct (run (f a) rest) as [[o es'] rest']|]; reflexivity).
    apply IH.
  - destruct ans as [|b t]; apply IH.
  - rewrite IH. destruct (run q ans) as [[[a|] es] rest]; cbn; [destruct (run (f a) rest) as [[o es'] rest']|]; reflexivity.
  - reflexivity.
Qed.
Lemma run_gone_all : forall f n i v ans, run (gone_all f i n v) ans = (Some (tt, v), map (fun k => Gone (f k)) (seq i n), ans).
Proof.
  induction n as [|n IH]; intros i v ans; [reflexivity|].
  cbn [gone_all seq map]. unfold bind. rewrite run_bind. cbn [run gone out fst snd]. rewrite IH. reflexivity.
Qed.
Lemma run_make_all : forall f n i v ans o es rest, run (make_all f i n v) ans = (o, es, rest) ->
  (o = Some (true, v) /\ es = map (fun k => Got (f k)) (seq i n)) \/
  (exists k, k < n /\ o = Some (false, v) /\ es = map (fun k => Got (f k)) (seq i k) ++ map (fun k => Gone (f k)) (seq 0 (i + k))).
Proof.
  induction n as [|n IH]; intros i v ans o es rest H.
  - cbn in H. inversion H; subst. left. split; reflexivity.
  - cbn [make_all] in H. unfold bind at 1 in H. rewrite run_bind in H. cbn [run try] in H.
    assert (G : forall t, (let '(o, es', rest') := run (make_all f (S i) n v) t in (o, [Got (f i)] ++ es', rest')) = (o, es, rest) ->
      (o = Some (true, v) /\ es = map (fun k => Got (f k)) (seq i (S n))) \/
      (exists k, k < S n /\ o = Some (false, v) /\ es = map (fun k => Got (f k)) (seq i k) ++ map (fun k => Gone (f k)) (seq 0 (i + k)))).
    { intros t E. destruct (run (make_all f (S i) n v) t) as [[o' es'] rest'] eqn:R. inversion E; subst.
      destruct (IH _ _ _ _ _ _ R) as [[-> ->]|[k [K [-> ->]]]].
      - left. split; reflexivity.
      - right. exists (S k). split; [lia|]. split; [reflexivity|]. replace (i + S k) with (S i + k) by lia. reflexivity. }
    destruct ans as [|[|] t]; cbn [fst snd app] in H.
    + exact (G [] H).
    + exact (G t H).
    + unfold bind in H. rewrite run_bind, run_gone_all in H. cbn in H. inversion H; subst.
      right. exists 0. split; [lia|]. split; [reflexivity|]. cbn [seq map app]. rewrite Nat.add_0_r, ?app_nil_r. reflexivity.
Qed.
Lemma held_got : forall (f : nat -> res) (l : list nat) (h : list res), held h (map (fun k => Got (f k)) l) = rev (map f l) ++ h.
Proof.
  induction l as [|x t IH]; intros h; [reflexivity|]. cbn [map held rev]. rewrite IH, <- app_assoc. reflexivity.
Qed.
Lemma count_rev : forall r l, count r (rev l) = count r l.
Proof. induction l as [|x t IH]; [reflexivity|]. cbn [rev]. rewrite count_app, IH. cbn. lia. Qed.
Lemma count_gone : forall (f : nat -> res) r (l : list nat) (h : list res), count r (held h (map (fun k => Gone (f k)) l)) = count r h - count r (map f l).
Proof.
  induction l as [|x t IH]; intros h; [cbn; lia|]. cbn [map held]. rewrite IH, count_drop.
  cbn [count]. destruct (res_eqb r (f x)); cbn; lia.
Qed.
Lemma app_split : forall A (a b p : list A) x q, a ++ b = p ++ x :: q ->
  (exists a2, a = p ++ x :: a2 /\ q = a2 ++ b) \/ (exists p2, p = a ++ p2 /\ b = p2 ++ x :: q).
Proof.
  induction a as [|y a IH]; intros b p x q H.
  - right. exists p. split; [reflexivity|exact H].
  - destruct p as [|z p]; cbn in H; injection H as E H.
    + left. exists a. subst. split; reflexivity.
    + subst z. destruct (IH b p x q H) as [[a2 [-> ->]]|[p2 [-> ->]]].
      * left. exists a2. split; reflexivity.
      * right. exists p2. split; reflexivity.
Qed.
Theorem loop_all_or_nothing : forall f n v ans o es rest, run (make_all f 0 n v) ans = (o, es, rest) ->
  released_once [] es /\
  (o = Some (true, v) /\ same (held [] es) (map f (seq 0 n)) \/ o = Some (false, v) /\ same (held [] es) []).
Proof.
  intros f n v ans o es rest H. destruct (run_make_all _ _ _ _ _ _ _ _ H) as [[-> ->]|[k [K [-> ->]]]].
  - split.
    + intros pre r post E _. assert (I : In (Gone r) (map (fun k => Got (f k)) (seq 0 n))) by (rewrite E; apply in_or_app; right; left; reflexivity).
      apply in_map_iff in I. destruct I as [x [I _]]. discriminate I.
    + left. split; [reflexivity|]. intros r. rewrite held_got, app_nil_r. apply count_rev.
  - cbn [Nat.add] in *. split.
    + intros pre r post E _. destruct (app_split _ _ _ _ _ _ E) as [[a2 [A _]]|[p2 [-> P]]].
      * assert (I : In (Gone r) (map (fun k => Got (f k)) (seq 0 k))) by (rewrite A; apply in_or_app; right; left; reflexivity).
        apply in_map_iff in I. destruct I as [x [I _]]. discriminate I.
      * apply count_In. rewrite held_app, held_got, app_nil_r.
        assert (Q : exists s1 y s2, seq 0 k = s1 ++ y :: s2 /\ p2 = map (fun k => Gone (f k)) s1 /\ f y = r).
        { revert P. generalize (seq 0 k). clear. intros s. revert p2. induction s as [|y s IH]; intros p2 P.
          - destruct p2; discriminate P.
          - destruct p2 as [|z p2]; cbn in P; injection P as E P.
            + exists [], y, s. split; [reflexivity|]. split; [reflexivity|]. exact E.
            + destruct (IH _ P) as [s1 [w [s2 [-> [-> W]]]]]. exists (y :: s1), w, s2.
              split; [reflexivity|]. split; [cbn; rewrite E; reflexivity|exact W]. }
        destruct Q as [s1 [y [s2 [-> [-> <-]]]]]. rewrite count_gone, count_rev, map_app, count_app. cbn [map count].
        rewrite res_eqb_refl. lia.
    + right. split; [reflexivity|]. intros r. rewrite held_app, held_got, app_nil_r, count_gone, count_rev. cbn. lia.
Qed.
Print Assumptions loop_all_or_nothing.

(** Attempts of a unicast IPCP. *)
(** What a failed attempt can leave: the entries of the data transfer component for
    the flow allocator and the DHT, the condition variable and the listener of
    the DHT, the listener of data transfer, the threads of enrollment and connection
    manager. *)
Definition leftovers : list res := [Comp 0; Comp 1; DhtCond; DhtNotif; DtNotif; EnThr; CmThr].
(** A condition attribute of fa_init, on its stack. *)
Definition comps_ok (l : list nat) : bool :=
  match l with [] | [0] | [1; 0] => true | _ => false end.
Definition steady (v : view) : bool :=
  match v with View [RibInfo] _ c _ [CEnr] _ _ _ => comps_ok c | _ => false end.
Definition got0 (es : list ev) : bool := existsb (fun e => match e with Got (Comp 0) => true | _ => false end) es.
Definition none (l : list nat) : bool := match l with [] => true | _ => false end.
Definition try_check (dbg : bool) (c : cmd) (comps : list nat) (x : option (bool * view) * list ev) : bool :=
  rel_ok [FaCattr] [] (snd x) &&
  match fst x with
  | None => dbg && negb (none comps)
  | Some (true, _) => same_ok [Comp 0; Comp 1] (held [] (snd x)) (parts c)
  | Some (false, v) =>
      steady v && same_ok leftovers (held [] (snd x)) [] &&
      Bool.eqb (none (v_comps v)) (none comps && negb (got0 (snd x))) &&
      (negb (none (v_comps v)) || same_ok [] (held [] (snd x)) [])
  end.
Lemma try_all : forall dbg c comps notif ids en cm dht, comps_ok comps = true ->
  forallb (try_check dbg c comps) (paths (unicast_cmd dbg c (View [RibInfo] notif comps ids [CEnr] en cm dht))) = true.
Proof.
  intros dbg c comps notif ids en cm dht H.
  assert (C : comps = [] \/ comps = [0] \/ comps = [1; 0]).
  { destruct comps as [|[|[|n]] [|[|m] [|k t]]]; try discriminate H; auto. }
  clear H. destruct dbg; destruct c; destruct C as [-> | [-> | ->]]; vm_compute; reflexivity.
Qed.
Lemma try_clean : forall dbg c comps notif ids en cm dht, comps_ok comps = true ->
  let r := fst (fst (run (unicast_cmd dbg c (View [RibInfo] notif comps ids [CEnr] en cm dht)) [])) in
  if dbg && negb (none comps) then r = None else exists v2, r = Some (true, v2).
Proof.
  intros dbg c comps notif ids en cm dht H.
  assert (C : comps = [] \/ comps = [0] \/ comps = [1; 0]).
  { destruct comps as [|[|[|n]] [|[|m] [|k t]]]; try discriminate H; auto. }
  clear H. destruct dbg; destruct c; destruct C as [-> | [-> | ->]]; vm_compute; try reflexivity; eexists; reflexivity.
Qed.
Lemma steady_inv : forall v, steady v = true -> exists notif comps ids en cm dht,
  v = View [RibInfo] notif comps ids [CEnr] en cm dht /\ comps_ok comps = true.
Proof.
  intros [rib notif comps ids named en cm dht] H. cbn [steady] in H.
  destruct rib as [|r [|r2 rib]]; try discriminate H; destruct r; try discriminate H.
  - destruct named as [|n [|n2 named]]; try discriminate H; destruct n; try discriminate H.
    exists notif, comps, ids, en, cm, dht. split; [reflexivity|exact H].
Qed.
Lemma got0_In : forall es, got0 es = true <-> In (Got (Comp 0)) es.
Proof.
  intros es. unfold got0. rewrite existsb_exists. split.
  - intros [e [I E]]. destruct e as [r|r|r]; try discriminate E. destruct r as [| | | | | | | | | | | | | | | | | | | | | | | | | | | | | | | | | | | | | | | | | | | | |i| | | | | | | | | | | | | | | | | | | | |]; try discriminate E.
    destruct i; [exact I|discriminate E].
  - intros I. exists (Got (Comp 0)). split; [exact I|reflexivity].
Qed.

Lemma attempts_inv : forall dbg l v v1 es, steady v = true -> attempts (unicast_cmd dbg) l v = (Some (false, v1), es) ->
  steady v1 = true /\ none (v_comps v1) = none (v_comps v) && negb (got0 es) /\
  (forall h r, ~ In r (FaCattr :: leftovers) -> count r (held h es) = count r h) /\
  (none (v_comps v1) = true -> forall h r, r <> FaCattr -> count r (held h es) = count r h).
Proof.
  intros dbg l. induction l as [|[c ans] l IH]; intros v v1 es S H; cbn [attempts] in H.
  - inversion H; subst. split; [exact S|]. split; [cbn; rewrite andb_true_r; reflexivity|]. split; [reflexivity|intros _ h r N; reflexivity].
  - destruct (run (unicast_cmd dbg c v) ans) as [[o es1] rest] eqn:R.
    destruct o as [[[|] v']|]; [inversion H| |inversion H].
    destruct (attempts (unicast_cmd dbg) l v') as [o' es'] eqn:A. inversion H; subst. clear H.
    destruct (steady_inv _ S) as [notif [comps [ids [en [cm [dht [-> C]]]]]]].
    pose proof (paths_all _ _ _ (try_all dbg c comps notif ids en cm dht C) _ _ _ _ R) as T.
    unfold try_check in T. cbn [fst snd] in T. rewrite !andb_true_iff in T. destruct T as [T0 [[[T1 T2] T3] T4]].
    destruct (IH _ _ _ T1 A) as [I1 [I2 [I3 I4]]]. apply eqb_prop in T3. cbn [v_comps] in *.
    split; [exact I1|]. split.
    { rewrite I2, T3. unfold got0 at 3. rewrite existsb_app. fold (got0 es1) (got0 es').
      destruct (none comps); destruct (got0 es1); destruct (got0 es'); reflexivity. }
    split.
    + intros h r N. rewrite held_app, I3 by exact N.
      assert (N2 : ~ In r [FaCattr]) by (intros [E|[]]; apply N; left; exact E).
      pose proof (held_delta _ _ _ _ N2 T0 h) as D. cbn [app] in D. rewrite D.
      assert (N3 : ~ In r leftovers) by (intros E; apply N; right; exact E).
      rewrite (same_ok_sound _ _ _ T2 r N3). reflexivity.
    + intros Z h r N. rewrite held_app, I4 by (exact Z || exact N).
      assert (N2 : ~ In r [FaCattr]) by (intros [E|[]]; apply N; symmetry; exact E).
      pose proof (held_delta _ _ _ _ N2 T0 h) as D. cbn [app] in D. rewrite D.
      rewrite I2 in Z. apply andb_true_iff in Z. destruct Z as [Z _]. rewrite Z in T4. cbn in T4.
      rewrite (same_but_nil _ _ (same_ok_sound _ _ _ T4) r). reflexivity.
Qed.

(** After any number of failed attempts, whatever fails in them: all is held as
    before but the leftovers; without exception if no attempt got as far as to
    register the flow allocator with data transfer. *)
Theorem unicast_failures_partial : forall dbg v l v1 es,
  started v -> attempts (unicast_cmd dbg) l v = (Some (false, v1), es) ->
  (forall r, ~ In r (FaCattr :: leftovers) -> count r (held idle es) = count r idle) /\
  (~ In (Got (Comp 0)) es -> forall r, r <> FaCattr -> count r (held idle es) = count r idle).
Proof.
  intros dbg v l v1 es S H. apply started_eq in S. subst v.
  destruct (attempts_inv dbg l v_start v1 es eq_refl H) as [_ [I2 [I3 I4]]].
  split; [exact (I3 idle)|]. intros N. apply I4. rewrite I2. cbn.
  destruct (got0 es) eqn:G; [apply got0_In in G; contradiction|reflexivity].
Qed.
Print Assumptions unicast_failures_partial.

(** The next attempt, whatever fails in it: it releases only what it acquired; if
    it succeeds it has acquired all parts, each once; it fails an assertion only in
    a debug build and after an earlier attempt that registered the flow allocator;
    and if nothing fails in it, it succeeds: in a release build always, in a debug
    build exactly if no earlier attempt registered the flow allocator. *)
Theorem unicast_attempt_partial : forall dbg v l v1 es0 c ans o es rest,
  started v -> attempts (unicast_cmd dbg) l v = (Some (false, v1), es0) ->
  run (unicast_cmd dbg c v1) ans = (o, es, rest) ->
  released_once_but [FaCattr] [] es /\
  (forall v2, o = Some (true, v2) -> same_but [Comp 0; Comp 1] (held [] es) (parts c)) /\
  (o = None -> dbg = true /\ In (Got (Comp 0)) es0) /\
  (ans = [] -> (dbg = false \/ ~ In (Got (Comp 0)) es0) -> exists v2, o = Some (true, v2)) /\
  (ans = [] -> dbg = true -> In (Got (Comp 0)) es0 -> o = None).
Proof.
  intros dbg v l v1 es0 c ans o es rest S A R. apply started_eq in S. subst v.
  destruct (attempts_inv dbg l v_start v1 es0 eq_refl A) as [I1 [I2 _]].
  destruct (steady_inv _ I1) as [notif [comps [ids [en [cm [dht [E C]]]]]]]. subst v1.
  pose proof (paths_all _ _ _ (try_all dbg c comps notif ids en cm dht C) _ _ _ _ R) as T.
  unfold try_check in T. cbn [fst snd] in T. apply andb_true_iff in T. destruct T as [T0 T].
  cbn [v_comps v_start none andb] in I2.
  assert (G : none comps = false <-> In (Got (Comp 0)) es0).
  { rewrite <- got0_In, I2. destruct (got0 es0); cbn; split; congruence. }
  split; [apply rel_ok_sound; exact T0|].
  split; [intros v2 ->; apply same_ok_sound; exact T|].
  split; [intros ->; apply andb_true_iff in T; destruct T as [T1 T2]; apply negb_true_iff in T2; split; [exact T1|apply G; exact T2]|].
  pose proof (try_clean dbg c comps notif ids en cm dht C) as K. cbn zeta in K.
  split.
  - intros -> D. rewrite R in K. cbn [fst] in K. destruct D as [->|D]; [exact K|].
    destruct (none comps) eqn:Z; [rewrite andb_false_r in K; exact K|]. elim D. apply G. reflexivity.
  - intros -> -> D. rewrite R in K. cbn [fst] in K. apply G in D. rewrite D in K. exact K.
Qed.
Print Assumptions unicast_attempt_partial.

(** The first attempt in detail. *)
Definition whole_ok (nd : res -> list res) (l : list (res * res)) (h : list res) : bool :=
  forallb (fun r => forallb (fun u => memp (r, u) l || mem u h) (nd r)) h.
Lemma whole_ok_sound : forall nd l h, whole_ok nd l h = true -> whole nd l h.
Proof.
  intros nd l h H r u I1 I2 N. assert (W : forallb (fun r => forallb (fun u => memp (r, u) l || mem u h) (nd r)) h = true) by exact H.
  rewrite forallb_forall in W. specialize (W r I1). rewrite forallb_forall in W. specialize (W u I2).
  apply orb_true_iff in W. destruct W as [W|W]; [apply memp_In in W; contradiction|apply mem_In; exact W].
Qed.
Definition early : list (res * res) :=
  [(DhtNotif, DhtMem); (Comp 1, DhtMem); (DtNotif, DtPsched); (CmThr, CMtx CMgmt); (CmThr, CMtx CDt)].
Definition first_check (x : option (bool * view) * list ev) : bool :=
  made_ok idle (snd x) &&
  match fst x with
  | None => false
  | Some (true, _) => rel_ok [] [] (snd x) && comp_ok needs [] idle (snd x)
  | Some (false, _) => comp_ok needs early idle (snd x) && (got0 (snd x) || comp_ok needs [] idle (snd x))
  end.
Lemma first_all : forall dbg c, forallb first_check (paths (unicast_cmd dbg c v_start)) = true.
Proof. intros [|] [|]; vm_compute; reflexivity. Qed.
(** In the first attempt nothing is made that is there already.  If it succeeds,
    nothing was released twice and nothing ever lacked what it needs; if it
    fails, only the pairs of [early] did, and none if the failure was before the flow
    allocator was registered. *)
Theorem unicast_first_partial : forall dbg v c ans o es rest,
  started v -> run (unicast_cmd dbg c v) ans = (o, es, rest) ->
  made_once idle es /\
  (forall v2, o = Some (true, v2) -> released_once [] es /\ complete needs idle es) /\
  (forall v2, o = Some (false, v2) -> complete_but needs early idle es /\ (~ In (Got (Comp 0)) es -> complete needs idle es)).
Proof.
  intros dbg v c ans o es rest S R. apply started_eq in S. subst v.
  pose proof (paths_all _ _ _ (first_all dbg c) _ _ _ _ R) as T.
  unfold first_check in T. cbn [fst snd] in T. apply andb_true_iff in T. destruct T as [T0 T].
  assert (W : whole needs [] idle) by (apply whole_ok_sound; vm_compute; reflexivity).
  assert (W2 : whole needs early idle) by (apply whole_ok_sound; vm_compute; reflexivity).
  split; [apply made_ok_sound; exact T0|]. destruct o as [[[|] v']|]; [| |discriminate T]; apply andb_true_iff in T; destruct T as [T1 T2].
  - split; [|intros v2 E; discriminate E]. intros v2 _. split; [apply rel_ok_sound; exact T1|].
    apply comp_ok_sound; [exact W|exact T2].
  - split; [intros v2 E; discriminate E|]. intros v2 _. split; [apply comp_ok_sound; [exact W2|exact T1]|].
    intros N. apply orb_true_iff in T2. destruct T2 as [T2|T2]; [apply got0_In in T2; contradiction|].
    apply comp_ok_sound; [exact W|exact T2].
Qed.
Print Assumptions unicast_first_partial.

(** The process that started, for the examples. *)
Lemma v_start_started : started v_start.
Proof. exists []. vm_compute. eexists. eexists. reflexivity. Qed.
(** The answers with which the call number [n] (of those that can fail) fails. *)
Definition fails_at (n : nat) : list bool := repeat true n ++ [false].

(** A peer or a bootstrap for which the last step fails, then one for which all is
    well: the process fails an assertion. *)
Theorem unicast_again_refuted : ~ (forall dbg v ans v1 es rest c,
  started v -> run (unicast_cmd dbg Boot v) ans = (Some (false, v1), es, rest) ->
  exists v2, fst (fst (run (unicast_cmd dbg c v1) [])) = Some (true, v2)).
Proof.
  intros H.
  assert (E : exists v1 es rest, run (unicast_cmd true Boot v_start) (fails_at 50) = (Some (false, v1), es, rest)
              /\ fst (fst (run (unicast_cmd true Boot v1) [])) = None).
  { vm_compute. eexists. eexists. eexists. split; reflexivity. }
  destruct E as [v1 [es [rest [E1 E2]]]].
  destruct (H true v_start _ _ _ _ Boot v_start_started E1) as [v2 K]. congruence.
Qed.
Print Assumptions unicast_again_refuted.

(** If the thread of data transfer cannot be created, its listener stays registered
    although the packet scheduler that it uses is destroyed. *)
Theorem join_listener_refuted : ~ (forall dbg v c ans v1 es rest, started v ->
  run (unicast_cmd dbg c v) ans = (Some (false, v1), es, rest) -> ~ (In DtNotif (held idle es) /\ ~ In DtPsched (held idle es))).
Proof.
  intros H.
  assert (E : exists v1 es rest, run (unicast_cmd true Boot v_start) (fails_at 42) = (Some (false, v1), es, rest)
              /\ mem DtNotif (held idle es) && negb (mem DtPsched (held idle es)) = true).
  { vm_compute. eexists. eexists. eexists. split; reflexivity. }
  destruct E as [v1 [es [rest [E1 E2]]]]. apply andb_true_iff in E2. destruct E2 as [E2 E3].
  apply (H true v_start Boot _ _ _ _ v_start_started E1). split; [apply mem_In; exact E2|].
  intros K. apply mem_In in K. rewrite K in E3. discriminate E3.
Qed.
Print Assumptions join_listener_refuted.
(** If anything fails once the directory is made, the notifier keeps a listener of the
    DHT whose memory is freed. *)
Theorem join_dht_refuted : ~ (forall dbg v c ans v1 es rest, started v ->
  run (unicast_cmd dbg c v) ans = (Some (false, v1), es, rest) -> ~ (In DhtNotif (held idle es) /\ ~ In DhtMem (held idle es))).
Proof.
  intros H.
  assert (E : exists v1 es rest, run (unicast_cmd true Enroll v_start) (fails_at 43) = (Some (false, v1), es, rest)
              /\ mem DhtNotif (held idle es) && negb (mem DhtMem (held idle es)) = true).
  { vm_compute. eexists. eexists. eexists. split; reflexivity. }
  destruct E as [v1 [es [rest [E1 E2]]]]. apply andb_true_iff in E2. destruct E2 as [E2 E3].
  apply (H true v_start Enroll _ _ _ _ v_start_started E1). split; [apply mem_In; exact E2|].
  intros K. apply mem_In in K. rewrite K in E3. discriminate E3.
Qed.
Print Assumptions join_dht_refuted.
(** The thread of the enrollment component, told to stop, is not waited for. *)
Theorem join_thread_refuted : ~ (forall dbg v c ans v1 es rest, started v ->
  run (unicast_cmd dbg c v) ans = (Some (false, v1), es, rest) -> forall r, is_thread r = true -> count r (held idle es) = count r idle).
Proof.
  intros H.
  assert (E : exists v1 es rest, run (unicast_cmd true Boot v_start) (fails_at 49) = (Some (false, v1), es, rest)
              /\ count EnThr (held idle es) = 1).
  { vm_compute. eexists. eexists. eexists. split; reflexivity. }
  destruct E as [v1 [es [rest [E1 E2]]]]. specialize (H true v_start Boot _ _ _ _ v_start_started E1 EnThr eq_refl).
  rewrite E2 in H. discriminate H.
Qed.
Print Assumptions join_thread_refuted.
(** If the flow allocator cannot register with the RIB, a condition attribute is
    destroyed twice. *)
Lemma rel_ok_complete : forall l h es, released_once_but l h es -> rel_ok l h es = true.
Proof.
  intros l h es R. assert (G : forall t p, p ++ t = es -> rel_ok l (held h p) t = true).
  { induction t as [|e t IH]; intros p P; [reflexivity|]. destruct e as [x|x|x]; cbn.
    - specialize (IH (p ++ [Got x])). rewrite <- app_assoc in IH. specialize (IH P). rewrite held_app in IH. exact IH.
    - specialize (IH (p ++ [Gone x])). rewrite <- app_assoc in IH. specialize (IH P). rewrite held_app in IH.
      cbn [held] in IH. rewrite IH, andb_true_r. destruct (mem x l) eqn:L; [reflexivity|]. cbn.
      apply mem_In. refine (R p x t (eq_sym P) _). intros F. apply mem_In in F. congruence.
    - specialize (IH (p ++ [Cancel x])). rewrite <- app_assoc in IH. specialize (IH P). rewrite held_app in IH. exact IH. }
  exact (G es [] eq_refl).
Qed.
Theorem join_attr_refuted : ~ (forall dbg v c ans o es rest, started v ->
  run (unicast_cmd dbg c v) ans = (o, es, rest) -> released_once [] es).
Proof.
  intros H.
  assert (E : exists o es rest, run (unicast_cmd true Boot v_start) (fails_at 31) = (o, es, rest) /\ rel_ok [] [] es = false).
  { vm_compute. eexists. eexists. eexists. split; reflexivity. }
  destruct E as [o [es [rest [E1 E2]]]]. specialize (H true v_start Boot _ _ _ _ v_start_started E1).
  apply rel_ok_complete in H. congruence.
Qed.
Print Assumptions join_attr_refuted.

(** The end of a unicast IPCP that joined a layer at its first attempt, and of one that never joined. *)
Definition late : list (res * res) :=
  [(DhtNotif, DhtMem); (Comp 1, DhtMem); (CmThr, CMtx CMgmt); (CmThr, CMtx CDt); (CmThr, CMtx CEnr)].
Definition life (m : M bool) (e : M unit) : M bool := bind m (fun b => if b then bind e (fun _ => ret true) else ret false).
Definition end_check (x : option (bool * view) * list ev) : bool :=
  match fst x with
  | Some (true, _) => same_ok [] (held idle (snd x)) [Comp 0; Comp 1; DhtCond] && rel_ok [] idle (snd x)
                      && comp_ok needs late idle (snd x)
  | _ => true
  end.
Lemma end_all : forall dbg c, forallb end_check (paths (life (unicast_cmd dbg c) unicast_end v_start)) = true.
Proof. intros [|] [|]; vm_compute; reflexivity. Qed.
(** Threads are told to stop before they are waited for: over the whole life. *)
Definition all_life (dbg : bool) (c : cmd) : M bool := life main_start (bind (unicast_cmd dbg c) (fun b => if b then unicast_end else main_end)).
Lemma told_all : forall dbg c, forallb (fun x => told_ok [] (snd x)) (paths (all_life dbg c view0)) = true.
Proof. intros [|] [|]; vm_compute; reflexivity. Qed.
Lemma run_life : forall m e v ans v1 es rest v2 es2 rest2,
  run (m v) ans = (Some (true, v1), es, rest) -> run (e v1) rest = (Some (tt, v2), es2, rest2) ->
  run (life m e v) ans = (Some (true, v2), es ++ es2, rest2).
Proof.
  intros m e v ans v1 es rest v2 es2 rest2 H1 H2. unfold life, bind at 1. rewrite run_bind, H1. cbn [fst snd].
  unfold bind. rewrite run_bind, H2. cbn [fst snd ret run]. rewrite app_nil_r. reflexivity.
Qed.
(** At the end of a unicast IPCP that is in a layer all is released, each thing
    once, but for the entries of the table of components and a condition variable
    of the DHT, and nothing lacks what it needs but for the pairs of [late]. *)
Theorem unicast_ends_partial : forall dbg v c ans v1 es rest v2 es2 rest2, started v ->
  run (unicast_cmd dbg c v) ans = (Some (true, v1), es, rest) ->
  run (unicast_end v1) rest = (Some (tt, v2), es2, rest2) ->
  same (held idle (es ++ es2)) [Comp 0; Comp 1; DhtCond] /\ released_once idle (es ++ es2) /\ complete_but needs late idle (es ++ es2).
Proof.
  intros dbg v c ans v1 es rest v2 es2 rest2 S H1 H2. apply started_eq in S. subst v.
  pose proof (run_life _ _ _ _ _ _ _ _ _ _ H1 H2) as R.
  pose proof (paths_all _ _ _ (end_all dbg c) _ _ _ _ R) as T. unfold end_check in T. cbn [fst snd] in T.
  rewrite !andb_true_iff in T. destruct T as [[T1 T2] T3].
  split; [apply same_but_nil, same_ok_sound; exact T1|]. split; [apply rel_ok_sound; exact T2|].
  apply comp_ok_sound; [apply whole_ok_sound; vm_compute; reflexivity|exact T3].
Qed.
Print Assumptions unicast_ends_partial.
(** From the first call of the process to its last, with one attempt between that
    succeeds or fails: no thread is waited for that was not told to stop. *)
Theorem unicast_waits_for_told : forall dbg c ans o es rest, run (all_life dbg c view0) ans = (o, es, rest) -> told es.
Proof.
  intros dbg c ans o es rest R. apply told_ok_sound. exact (paths_all _ _ _ (told_all dbg c) _ _ _ _ R).
Qed.
Print Assumptions unicast_waits_for_told.
Definition ball_life (c : cmd) : M bool := life main_start (bind (broadcast_cmd c) (fun b => if b then broadcast_end else main_end)).
Lemma btold_all : forall c, forallb (fun x => told_ok [] (snd x)) (paths (ball_life c view0)) = true.
Proof. intros [|]; vm_compute; reflexivity. Qed.
Theorem broadcast_waits_for_told : forall c ans o es rest, run (ball_life c view0) ans = (o, es, rest) -> told es.
Proof.
  intros c ans o es rest R. apply told_ok_sound. exact (paths_all _ _ _ (btold_all c) _ _ _ _ R).
Qed.
Print Assumptions broadcast_waits_for_told.
(** A process whose only attempt failed ends as well: all is released but for the
    same three, and each once but for the attribute of fa_init; so the end
    also waits for the threads that the attempt left. *)
Definition fail_end (m : M bool) : M bool := bind m (fun b => if b then ret true else bind main_end (fun _ => ret false)).
Lemma run_fail_end : forall m v ans v1 es rest v2 es2 rest2,
  run (m v) ans = (Some (false, v1), es, rest) -> run (main_end v1) rest = (Some (tt, v2), es2, rest2) ->
  run (fail_end m v) ans = (Some (false, v2), es ++ es2, rest2).
Proof.
  intros m v ans v1 es rest v2 es2 rest2 H1 H2. unfold fail_end, bind at 1. rewrite run_bind, H1. cbn [fst snd].
  unfold bind. rewrite run_bind, H2. cbn [fst snd ret run]. rewrite app_nil_r. reflexivity.
Qed.
Definition fail_check (l k : list res) (x : option (bool * view) * list ev) : bool :=
  match fst x with Some (false, _) => same_ok l (held idle (snd x)) [] && rel_ok k idle (snd x) | _ => true end.
Lemma fail_all : forall dbg c, forallb (fail_check [Comp 0; Comp 1; DhtCond] [FaCattr]) (paths (fail_end (unicast_cmd dbg c) v_start)) = true.
Proof. intros [|] [|]; vm_compute; reflexivity. Qed.
Lemma bfail_all : forall c, forallb (fail_check [] []) (paths (fail_end (broadcast_cmd c) v_start)) = true.
Proof. intros [|]; vm_compute; reflexivity. Qed.
Theorem unicast_fails_ends_partial : forall dbg v c ans v1 es rest v2 es2 rest2, started v ->
  run (unicast_cmd dbg c v) ans = (Some (false, v1), es, rest) -> run (main_end v1) rest = (Some (tt, v2), es2, rest2) ->
  same_but [Comp 0; Comp 1; DhtCond] (held idle (es ++ es2)) [] /\ released_once_but [FaCattr] idle (es ++ es2).
Proof.
  intros dbg v c ans v1 es rest v2 es2 rest2 S H1 H2. apply started_eq in S. subst v.
  pose proof (run_fail_end _ _ _ _ _ _ _ _ _ H1 H2) as R.
  pose proof (paths_all _ _ _ (fail_all dbg c) _ _ _ _ R) as T. unfold fail_check in T. cbn [fst snd] in T.
  apply andb_true_iff in T. destruct T as [T1 T2]. split; [apply same_ok_sound; exact T1|apply rel_ok_sound; exact T2].
Qed.
Print Assumptions unicast_fails_ends_partial.
(** A process that is in no layer ends with nothing held, each thing released once. *)
Theorem idle_ends : forall v ans o es rest, started v -> run (main_end v) ans = (o, es, rest) ->
  (exists v2, o = Some (tt, v2)) /\ same (held idle es) [] /\ released_once idle es /\ complete needs idle es.
Proof.
  intros v ans o es rest S R. apply started_eq in S. subst v.
  assert (T : forallb (fun x => match fst x with Some (tt, _) => true | None => false end && same_ok [] (held idle (snd x)) []
              && rel_ok [] idle (snd x) && comp_ok needs [] idle (snd x)) (paths (main_end v_start)) = true) by (vm_compute; reflexivity).
  pose proof (paths_all _ _ _ T _ _ _ _ R) as K. cbn [fst snd] in K. rewrite !andb_true_iff in K. destruct K as [[[K0 K1] K2] K3].
  split; [destruct o as [[[] v2]|]; [exists v2; reflexivity|discriminate K0]|].
  split; [apply same_but_nil, same_ok_sound; exact K1|]. split; [apply rel_ok_sound; exact K2|].
  apply comp_ok_sound; [apply whole_ok_sound; vm_compute; reflexivity|exact K3].
Qed.
Print Assumptions idle_ends.
(** At the end, the locks of the data transfer component are destroyed while the
    thread that accepts connections, told to stop, may still run and use them. *)
Theorem end_acceptor_refuted : ~ (forall dbg v c ans v1 es rest v2 es2 rest2, started v ->
  run (unicast_cmd dbg c v) ans = (Some (true, v1), es, rest) ->
  run (unicast_end v1) rest = (Some (tt, v2), es2, rest2) ->
  forall pre post, es ++ es2 = pre ++ post -> In CmThr (held idle pre) -> In (CMtx CDt) (held idle pre)).
Proof.
  intros H.
  assert (E : exists v1 es rest v2 es2 rest2,
     run (unicast_cmd true Boot v_start) [] = (Some (true, v1), es, rest) /\
     run (unicast_end v1) rest = (Some (tt, v2), es2, rest2) /\
     mem CmThr (held idle (firstn 105 (es ++ es2))) && negb (mem (CMtx CDt) (held idle (firstn 105 (es ++ es2)))) = true).
  { vm_compute. do 6 eexists. split; [reflexivity|]. split; reflexivity. }
  destruct E as [v1 [es [rest [v2 [es2 [rest2 [E1 [E2 E3]]]]]]]]. apply andb_true_iff in E3. destruct E3 as [E3 E4].
  specialize (H true v_start Boot _ _ _ _ _ _ _ v_start_started E1 E2 (firstn 105 (es ++ es2)) (skipn 105 (es ++ es2)) (eq_sym (firstn_skipn _ _))).
  apply mem_In in E3. apply H in E3. apply mem_In in E3. rewrite E3 in E4. discriminate E4.
Qed.
Print Assumptions end_acceptor_refuted.

(** Broadcast IPCPs. *)
Definition b_left : list res := [CMtx CDt; CCond CDt; EnThr].
Definition bsteady (v : view) : bool :=
  match v with View [RibInfo] _ [] _ _ _ _ _ => true | _ => false end.
Definition btry_check (x : option (bool * view) * list ev) : bool :=
  rel_ok [] [] (snd x) &&
  match fst x with
  | None => false
  | Some (true, _) => same_ok [] (held [] (snd x)) broadcast_parts
  | Some (false, v) => bsteady v && same_ok b_left (held [] (snd x)) []
  end.
Lemma btry_all : forall c notif ids named en cm dht,
  forallb btry_check (paths (broadcast_cmd c (View [RibInfo] notif [] ids named en cm dht))) = true.
Proof. intros [|]; intros; vm_compute; reflexivity. Qed.
Lemma btry_clean : forall c notif ids named en cm dht,
  exists v2, fst (fst (run (broadcast_cmd c (View [RibInfo] notif [] ids named en cm dht)) [])) = Some (true, v2).
Proof. intros [|]; intros; vm_compute; eexists; reflexivity. Qed.
Lemma bsteady_inv : forall v, bsteady v = true -> exists notif ids named en cm dht, v = View [RibInfo] notif [] ids named en cm dht.
Proof.
  intros [rib notif comps ids named en cm dht] H. cbn [bsteady] in H.
  destruct rib as [|r [|r2 rib]]; try discriminate H; destruct r; try discriminate H.
  destruct comps; [|discriminate H]. exists notif, ids, named, en, cm, dht. reflexivity.
Qed.
Lemma battempts_inv : forall l v v1 es, bsteady v = true -> attempts broadcast_cmd l v = (Some (false, v1), es) ->
  bsteady v1 = true /\ (forall h r, ~ In r b_left -> count r (held h es) = count r h).
Proof.
  intros l. induction l as [|[c ans] l IH]; intros v v1 es S H; cbn [attempts] in H.
  - inversion H; subst. split; [exact S|reflexivity].
  - destruct (run (broadcast_cmd c v) ans) as [[o es1] rest] eqn:R.
    destruct o as [[[|] v']|]; [inversion H| |inversion H].
    destruct (attempts broadcast_cmd l v') as [o' es'] eqn:A. inversion H; subst. clear H.
    destruct (bsteady_inv _ S) as [notif [ids [named [en [cm [dht ->]]]]]].
    pose proof (paths_all _ _ _ (btry_all c notif ids named en cm dht) _ _ _ _ R) as T.
    unfold btry_check in T. cbn [fst snd] in T. rewrite !andb_true_iff in T. destruct T as [T0 [T1 T2]].
    destruct (IH _ _ _ T1 A) as [I1 I3]. split; [exact I1|].
    intros h r N. rewrite held_app, I3 by exact N.
    pose proof (held_delta _ _ _ _ (fun F : In r [] => F) T0 h) as D. cbn [app] in D. rewrite D.
    rewrite (same_ok_sound _ _ _ T2 r N). reflexivity.
Qed.
(** After any number of failed attempts of a broadcast IPCP all is held as before but
    the leftovers; the next attempt releases only what it acquired, never fails an
    assertion, has acquired all parts if it succeeds, and succeeds if nothing
    fails in it. *)
Theorem broadcast_attempt_partial : forall v l v1 es0 c ans o es rest,
  started v -> attempts broadcast_cmd l v = (Some (false, v1), es0) ->
  run (broadcast_cmd c v1) ans = (o, es, rest) ->
  (forall r, ~ In r b_left -> count r (held idle es0) = count r idle) /\
  released_once [] es /\ o <> None /\
  (forall v2, o = Some (true, v2) -> same (held [] es) broadcast_parts) /\
  (ans = [] -> exists v2, o = Some (true, v2)).
Proof.
  intros v l v1 es0 c ans o es rest S A R. apply started_eq in S. subst v.
  destruct (battempts_inv l v_start v1 es0 eq_refl A) as [I1 I2].
  destruct (bsteady_inv _ I1) as [notif [ids [named [en [cm [dht ->]]]]]].
  pose proof (paths_all _ _ _ (btry_all c notif ids named en cm dht) _ _ _ _ R) as T.
  unfold btry_check in T. cbn [fst snd] in T. apply andb_true_iff in T. destruct T as [T0 T].
  split; [exact (I2 idle)|]. split; [apply rel_ok_sound; exact T0|].
  split; [intros ->; discriminate T|].
  split; [intros v2 ->; apply same_but_nil, same_ok_sound; exact T|].
  intros ->. destruct (btry_clean c notif ids named en cm dht) as [v2 K]. rewrite R in K. exists v2. exact K.
Qed.
Print Assumptions broadcast_attempt_partial.
(** The end of a broadcast IPCP that joined at its first attempt. *)
Definition blate : list (res * res) := [(BLis, CMtx CDt); (BLis, CCond CDt); (CmThr, CMtx CEnr)].
Definition bend_check (x : option (bool * view) * list ev) : bool :=
  match fst x with
  | Some (true, _) => same_ok [] (held idle (snd x)) [] && rel_ok [] idle (snd x) && comp_ok bneeds blate idle (snd x) && made_ok idle (snd x)
  | _ => true
  end.
Lemma bend_all : forall c, forallb bend_check (paths (life (broadcast_cmd c) broadcast_end v_start)) = true.
Proof. intros [|]; vm_compute; reflexivity. Qed.
Theorem broadcast_ends_partial : forall v c ans v1 es rest v2 es2 rest2, started v ->
  run (broadcast_cmd c v) ans = (Some (true, v1), es, rest) ->
  run (broadcast_end v1) rest = (Some (tt, v2), es2, rest2) ->
  same (held idle (es ++ es2)) [] /\ released_once idle (es ++ es2) /\ made_once idle (es ++ es2) /\ complete_but bneeds blate idle (es ++ es2).
Proof.
  intros v c ans v1 es rest v2 es2 rest2 S H1 H2. apply started_eq in S. subst v.
  pose proof (run_life _ _ _ _ _ _ _ _ _ _ H1 H2) as R.
  pose proof (paths_all _ _ _ (bend_all c) _ _ _ _ R) as T. unfold bend_check in T. cbn [fst snd] in T.
  rewrite !andb_true_iff in T. destruct T as [[[T1 T2] T3] T4].
  split; [apply same_but_nil, same_ok_sound; exact T1|]. split; [apply rel_ok_sound; exact T2|].
  split; [apply made_ok_sound; exact T4|].
  apply comp_ok_sound; [apply whole_ok_sound; vm_compute; reflexivity|exact T3].
Qed.
Print Assumptions broadcast_ends_partial.
(** So does one whose only attempt failed: nothing is left. *)
Theorem broadcast_fails_ends : forall v c ans v1 es rest v2 es2 rest2, started v ->
  run (broadcast_cmd c v) ans = (Some (false, v1), es, rest) -> run (main_end v1) rest = (Some (tt, v2), es2, rest2) ->
  same (held idle (es ++ es2)) [] /\ released_once idle (es ++ es2).
Proof.
  intros v c ans v1 es rest v2 es2 rest2 S H1 H2. apply started_eq in S. subst v.
  pose proof (run_fail_end _ _ _ _ _ _ _ _ _ H1 H2) as R.
  pose proof (paths_all _ _ _ (bfail_all c) _ _ _ _ R) as T. unfold fail_check in T. cbn [fst snd] in T.
  apply andb_true_iff in T. destruct T as [T1 T2].
  split; [apply same_but_nil, same_ok_sound; exact T1|apply rel_ok_sound; exact T2].
Qed.
Print Assumptions broadcast_fails_ends.
(** The thread that waits for connections is started before the lock and the condition
    variable on which it waits are made. *)
Theorem broadcast_listener_refuted : ~ (forall v c ans o es rest, started v ->
  run (broadcast_cmd c v) ans = (o, es, rest) ->
  forall pre post, es = pre ++ post -> In BLis (held idle pre) -> In (CMtx CDt) (held idle pre)).
Proof.
  intros H.
  assert (E : exists o es rest, run (broadcast_cmd Boot v_start) [] = (o, es, rest) /\
     mem BLis (held idle (firstn 5 es)) && negb (mem (CMtx CDt) (held idle (firstn 5 es))) = true).
  { vm_compute. do 3 eexists. split; reflexivity. }
  destruct E as [o [es [rest [E1 E3]]]]. apply andb_true_iff in E3. destruct E3 as [E3 E4].
  specialize (H v_start Boot _ _ _ _ v_start_started E1 (firstn 5 es) (skipn 5 es) (eq_sym (firstn_skipn _ _))).
  apply mem_In in E3. apply H in E3. apply mem_In in E3. rewrite E3 in E4. discriminate E4.
Qed.
Print Assumptions broadcast_listener_refuted.
(** A second attempt, after one whose threads could not be started, makes the lock of
    the data transfer component anew although the old one was not destroyed. *)
Theorem broadcast_again_refuted : ~ (forall v c1 c2 ans v1 es0 rest0 ans2 o es rest, started v ->
  run (broadcast_cmd c1 v) ans = (Some (false, v1), es0, rest0) ->
  run (broadcast_cmd c2 v1) ans2 = (o, es, rest) -> made_once idle (es0 ++ es)).
Proof.
  intros H.
  assert (E : exists v1 es0 rest0, run (broadcast_cmd Boot v_start) (fails_at 7) = (Some (false, v1), es0, rest0) /\
     exists o es rest, run (broadcast_cmd Boot v1) [] = (o, es, rest) /\ nth 5 es (Gone Log) = Got (CMtx CDt) /\ mem (CMtx CDt) (held idle (es0 ++ firstn 5 es)) = true).
  { vm_compute. do 3 eexists. split; [reflexivity|]. do 3 eexists. split; [reflexivity|]. split; reflexivity. }
  destruct E as [v1 [es0 [rest0 [E1 [o [es [rest [E2 [E3 E4]]]]]]]]].
  specialize (H v_start Boot Boot _ _ _ _ _ _ _ _ v_start_started E1 E2).
  refine (H (es0 ++ firstn 5 es) (CMtx CDt) (skipn 6 es) _ (proj1 (mem_In _ _) E4)).
  rewrite <- app_assoc. f_equal. clear - E3.
  do 6 (destruct es as [|? es]; [discriminate E3|]). cbn in E3 |- *. rewrite E3. reflexivity.
Qed.
Print Assumptions broadcast_again_refuted.

(** The premises are met: an idle process starts, fails to create a thread, then, in
    a release build, joins at the second attempt; without assertions reached too if
    the failure comes early; and it ends. *)
Example attempts_met :
  (exists v1 es, attempts (unicast_cmd false) [(Boot, fails_at 42); (Enroll, fails_at 10)] v_start = (Some (false, v1), es) /\ In (Got (Comp 0)) es
     /\ exists v2, fst (fst (run (unicast_cmd false Boot v1) [])) = Some (true, v2)) /\
  (exists v1 es, attempts (unicast_cmd true) [(Boot, fails_at 12); (Enroll, fails_at 3)] v_start = (Some (false, v1), es) /\ ~ In (Got (Comp 0)) es
     /\ exists v2, fst (fst (run (unicast_cmd true Boot v1) [])) = Some (true, v2)).
Proof.
  split.
  - assert (E : exists v1 es, attempts (unicast_cmd false) [(Boot, fails_at 42); (Enroll, fails_at 10)] v_start = (Some (false, v1), es) /\ got0 es = true
     /\ exists v2, fst (fst (run (unicast_cmd false Boot v1) [])) = Some (true, v2)).
    { vm_compute. do 2 eexists. split; [reflexivity|]. split; [reflexivity|]. eexists. reflexivity. }
    destruct E as [v1 [es [E1 [E2 E3]]]]. exists v1, es. split; [exact E1|]. split; [apply got0_In; exact E2|exact E3].
  - assert (E : exists v1 es, attempts (unicast_cmd true) [(Boot, fails_at 12); (Enroll, fails_at 3)] v_start = (Some (false, v1), es) /\ got0 es = false
     /\ exists v2, fst (fst (run (unicast_cmd true Boot v1) [])) = Some (true, v2)).
    { vm_compute. do 2 eexists. split; [reflexivity|]. split; [reflexivity|]. eexists. reflexivity. }
    destruct E as [v1 [es [E1 [E2 E3]]]]. exists v1, es. split; [exact E1|]. split; [|exact E3].
    intros K. apply got0_In in K. congruence.
Qed.
Example end_met : exists v1 es rest v2 es2 rest2, run (unicast_cmd true Boot v_start) [] = (Some (true, v1), es, rest) /\
  run (unicast_end v1) rest = (Some (tt, v2), es2, rest2) /\ Nat.ltb 60 (length es2) = true.
Proof. vm_compute. do 6 eexists. split; [reflexivity|]. split; reflexivity. Qed.
