(** Properties of the connection manager. *)
From Coq Require Import NArith ZArith List Bool Lia Arith.
From Verif Require Import ConnMgrModel ConnMgrSpec.
Import ListNotations.

Definition keys (l : list el) : list key := map el_key l.
Definition inb (k : key) (l : list key) : bool := existsb (Nat.eqb k) l.
Lemma inb_in : forall k l, inb k l = true <-> In k l.
Proof.
  intros. unfold inb. rewrite existsb_exists. split.
  - intros (x & X & E). apply Nat.eqb_eq in E. subst. exact X.
  - intros H. exists k. split; [exact H|apply Nat.eqb_refl].
Qed.
Definition live (k : key) (h : list event) : Prop :=
  (In k (accepted h) \/ In k (connected h)) /\ ~ In k (closed h).

Lemma run_cons : forall e h, run (e :: h) = fst (step (run h) e).
Proof. reflexivity. Qed.

Ltac inv H := inversion H; subst; clear H.

Lemma plaus_tl : forall e h, plausible (e :: h) -> plausible h.
Proof. intros e h H. inversion H; assumption. Qed.

(** Keys with a descriptor were made. *)
Lemma fd_made : forall h k fd, fd_of k h = Some fd -> In k (accepted h) \/ In k (connected h).
Proof.
  induction h as [|e h IH]; intros k fd H; cbn in H; [discriminate|].
  destruct e; cbn; try (apply (IH k fd H)).
  - destruct (Nat.eqb_spec k0 k) as [E|E]; [left; left; exact E|]. destruct (IH k fd H); tauto.
  - destruct (Nat.eqb_spec k0 k) as [E|E]; [right; left; exact E|]. destruct (IH k fd H); tauto.
Qed.
Lemma made_fd : forall h k, In k (accepted h) \/ In k (connected h) -> exists fd, fd_of k h = Some fd.
Proof.
  induction h as [|e h IH]; intros k H; cbn in *; [destruct H as [[]|[]]|].
  destruct e; cbn in *; try (apply IH; exact H).
  - destruct (Nat.eqb_spec k0 k) as [E|E]; [eexists; reflexivity|]. apply IH. tauto.
  - destruct (Nat.eqb_spec k0 k) as [E|E]; [eexists; reflexivity|]. apply IH. tauto.
Qed.

Lemma closed_mono : forall e h k, In k (closed h) -> In k (closed (e :: h)).
Proof. intros e h k H. cbn. destruct (outcome e h); cbn; tauto. Qed.

(** Every connection that is not closed has its own descriptor. *)
Lemma fd_unique : forall h, plausible h -> forall j k fd, live j h -> live k h ->
  fd_of j h = Some fd -> fd_of k h = Some fd -> j = k.
Proof.
  induction 1 as [|a fda h P IH [F1 F2] U|a fda d h P IH [F1 F2] U|h P IH|t d h P IH T|t h P IH|fda h P IH];
    intros j k fd J K Fj Fk.
  - discriminate.
  - destruct J as (J1 & J2), K as (K1 & K2). cbn in *.
    destruct (Nat.eqb_spec a j) as [Ej|Ej], (Nat.eqb_spec a k) as [Ek|Ek]; [congruence| | |].
    + exfalso. apply U. exists k. split; [tauto|]. split; [tauto|congruence].
    + exfalso. apply U. exists j. split; [tauto|]. split; [tauto|congruence].
    + apply (IH j k fd); try assumption; split; try tauto.
  - destruct J as (J1 & J2), K as (K1 & K2). cbn in *.
    destruct (Nat.eqb_spec a j) as [Ej|Ej], (Nat.eqb_spec a k) as [Ek|Ek]; [congruence| | |].
    + exfalso. apply U. exists k. split; [tauto|]. split; [tauto|congruence].
    + exfalso. apply U. exists j. split; [tauto|]. split; [tauto|congruence].
    + apply (IH j k fd); try assumption; split; try tauto.
  - destruct J as (J1 & J2), K as (K1 & K2).
    apply (IH j k fd); try assumption; split; try assumption; intros Q; [apply J2|apply K2]; apply closed_mono; exact Q.
  - destruct J as (J1 & J2), K as (K1 & K2).
    apply (IH j k fd); try assumption; split; try assumption; intros Q; [apply J2|apply K2]; apply closed_mono; exact Q.
  - destruct J as (J1 & J2), K as (K1 & K2).
    apply (IH j k fd); try assumption; split; try assumption; intros Q; [apply J2|apply K2]; apply closed_mono; exact Q.
  - destruct J as (J1 & J2), K as (K1 & K2).
    apply (IH j k fd); try assumption; split; try assumption; intros Q; [apply J2|apply K2]; apply closed_mono; exact Q.
Qed.

Lemma accepted_nodup : forall h, plausible h -> NoDup (accepted h).
Proof.
  induction 1 as [|a fda h P IH [F1 F2] U|a fda d h P IH F U|h P IH|t d h P IH T|t h P IH|fda h P IH]; cbn; try assumption.
  - constructor.
  - constructor; assumption.
Qed.

(** * The pending list *)

Definition waiting (h : list event) : list key :=
  filter (fun k => negb (inb k (handed h))) (accepted h).

Lemma filter_one : forall (l : list key) (s : list key) x r, NoDup l ->
  filter (fun k => negb (inb k s)) l = x :: r ->
  filter (fun k => negb (inb k (x :: s))) l = r.
Proof.
  induction l as [|a l IH]; intros s x r D H; [discriminate|]. inv D.
  cbn [filter] in *. destruct (inb a s) eqn:E; cbn [negb] in H.
  - assert (E' : inb a (x :: s) = true).
    { apply inb_in. right. apply inb_in. exact E. }
    rewrite E'. cbn [negb]. apply IH; assumption.
  - injection H as -> H. assert (E' : inb x (x :: s) = true).
    { apply inb_in. left. reflexivity. }
    rewrite E'. cbn [negb]. rewrite <- H. apply filter_ext_in. intros b B.
    f_equal. unfold inb. cbn [existsb].
    destruct (Nat.eqb_spec b x) as [Q|Q]; [subst; contradiction|reflexivity].
Qed.

Lemma handed_same : forall e h, (forall k, outcome e h <> Handed k) -> handed (e :: h) = handed h.
Proof. intros e h H. cbn. destruct (outcome e h) eqn:E; try reflexivity. exfalso. apply (H k). reflexivity. Qed.

Lemma only_wait_hands : forall e h k, outcome e h = Handed k -> e = Wait.
Proof.
  intros e h k. unfold outcome, step. destruct e; cbn; try discriminate; try reflexivity.
  - destruct (search dst (conns (run h))) as [[x|]|]; discriminate.
  - destruct (taken t (busy (run h))) as [x|]; [|discriminate].
    destruct (mem (el_key x) (conns (run h))); discriminate.
  - destruct (by_fd fd (conns (run h))); discriminate.
Qed.

Lemma pending_keep : forall e h, e <> Wait -> (forall k fd, e <> Accept k fd) ->
  pending (run (e :: h)) = pending (run h).
Proof.
  intros e h N1 N2. rewrite run_cons. unfold step. destruct e; cbn; try congruence.
  - destruct (search dst (conns (run h))) as [[x|]|]; reflexivity.
  - destruct (taken t (busy (run h))) as [x|]; [|reflexivity].
    destruct (mem (el_key x) (conns (run h))); reflexivity.
  - destruct (by_fd fd (conns (run h))); reflexivity.
Qed.

Lemma pending_waiting : forall h, plausible h -> keys (pending (run h)) = waiting h.
Proof.
  induction 1 as [|a fda h P IH [F1 F2] U|a fda d h P IH F U|h P IH|t d h P IH T|t h P IH|fda h P IH].
  - reflexivity.
  - assert (HH : handed (Accept a fda :: h) = handed h) by (apply handed_same; intros k; discriminate).
    rewrite run_cons. unfold waiting. rewrite HH. cbn [accepted filter]. unfold step; cbn [fst pending keys map el_key].
    fold (waiting h). rewrite <- IH.
    assert (E : inb a (handed h) = false).
    { destruct (inb a (handed h)) eqn:E; [|reflexivity]. apply inb_in in E. exfalso. apply F1.
      clear - E. induction h as [|e h IH]; cbn in *; [destruct E|].
      destruct (outcome e h) eqn:O; try (destruct e; cbn; try right; apply IH; exact E).
      pose proof (only_wait_hands _ _ _ O); subst e. cbn. destruct E as [E|E]; [|apply IH; exact E].
      subst k. unfold outcome, step in O. destruct (pending (run h)) as [|x p] eqn:Q; [discriminate|].
      injection O as O. subst a.
      assert (G : forall h x, In x (pending (run h)) -> In (el_key x) (accepted h)).
      { clear. induction h as [|e h IH]; intros x X; [destruct X|]. rewrite run_cons in X. unfold step in X.
        destruct e; cbn in X.
        - destruct X as [<-|X]; [left; reflexivity|right; apply IH; exact X].
        - cbn. apply IH. destruct (pending (run h)) eqn:E; cbn in X; [rewrite E in X; exact X|right; exact X].
        - cbn. apply IH; exact X.
        - cbn. apply IH. destruct (search dst (conns (run h))) as [[y|]|]; exact X.
        - cbn. apply IH. destruct (taken t (busy (run h))) as [y|]; [|exact X].
          destruct (mem (el_key y) (conns (run h))); exact X.
        - cbn. apply IH. destruct (by_fd fd (conns (run h))); exact X. }
      apply G. rewrite Q. left. reflexivity. }
    rewrite E. reflexivity.
  - unfold waiting. cbn -[inb]. exact IH.
  - rewrite run_cons. unfold step. unfold waiting. cbn [accepted handed].
    unfold outcome, step. destruct (pending (run h)) as [|x p] eqn:E; cbn [fst snd].
    + rewrite E. exact IH.
    + cbn [pending]. unfold waiting in IH. cbn [keys map] in IH. symmetry in IH.
      rewrite (filter_one _ _ _ _ (accepted_nodup h P) IH). reflexivity.
  - rewrite pending_keep by discriminate. unfold waiting. cbn [accepted].
    rewrite handed_same; [exact IH|]. intros k Q. apply only_wait_hands in Q. discriminate.
  - rewrite pending_keep by discriminate. unfold waiting. cbn [accepted].
    rewrite handed_same; [exact IH|]. intros k Q. apply only_wait_hands in Q. discriminate.
  - rewrite pending_keep by discriminate. unfold waiting. cbn [accepted].
    rewrite handed_same; [exact IH|]. intros k Q. apply only_wait_hands in Q. discriminate.
Qed.

Lemma wait_out : forall h, outcome Wait h =
  match pending (run h) with [] => Nothing | x :: _ => Handed (el_key x) end.
Proof. intros. unfold outcome, step. destruct (pending (run h)); reflexivity. Qed.

Lemma wait_first : forall h k, plausible h -> outcome Wait h = Handed k ->
  exists a b, accepted h = a ++ k :: b /\ (forall j, In j a -> In j (handed h)) /\ ~ In k (handed h).
Proof.
  intros h k P O. rewrite wait_out in O. pose proof (pending_waiting h P) as W.
  destruct (pending (run h)) as [|x p]; [discriminate|]. injection O as <-.
  cbn [keys map] in W. unfold waiting in W. revert W. generalize (accepted h). intros l.
  induction l as [|y l IH]; intros W; [discriminate|]. cbn [filter] in W.
  destruct (inb y (handed h)) eqn:E; cbn [negb] in W.
  - destruct (IH W) as (a & b & A & B & C). exists (y :: a), b. rewrite A. split; [reflexivity|].
    split; [|exact C]. intros j [<-|J]; [apply inb_in; exact E|apply B; exact J].
  - injection W as -> W. exists [], l. split; [reflexivity|]. split; [intros j []|].
    intros Q. apply inb_in in Q. congruence.
Qed.

(** C87 (accepted connections reach the component).  In every plausible
    history: no connection is given to the component twice, only accepted
    ones are given, and as long as one was not given, the component that
    asks gets one of those. *)
Theorem accepted_handed_once :
  forall h, plausible h ->
  NoDup (handed h) /\ incl (handed h) (accepted h) /\
  ((exists k, In k (accepted h) /\ ~ In k (handed h)) ->
   exists k, outcome Wait h = Handed k /\ In k (accepted h) /\ ~ In k (handed h)).
Proof.
  intros h P. split; [|split].
  - induction h as [|e h IH]; [constructor|]. pose proof (plaus_tl _ _ P) as Q. cbn.
    destruct (outcome e h) eqn:O; try (apply IH; exact Q).
    constructor; [|apply IH; exact Q]. pose proof (only_wait_hands _ _ _ O). subst e.
    destruct (wait_first h k Q O) as (a & b & _ & _ & N). exact N.
  - induction h as [|e h IH]; [intros k []|]. pose proof (plaus_tl _ _ P) as Q. specialize (IH Q).
    intros j. cbn [handed]. destruct (outcome e h) eqn:O; intros J;
      try (apply IH in J; destruct e; cbn; tauto).
    pose proof (only_wait_hands _ _ _ O). subst e. cbn. destruct J as [<-|J]; [|apply IH; exact J].
    destruct (wait_first h k Q O) as (a & b & A & _). rewrite A. apply in_or_app. right. left. reflexivity.
  - intros (k & K1 & K2). pose proof (pending_waiting h P) as W. unfold waiting in W.
    assert (I : In k (filter (fun k => negb (inb k (handed h))) (accepted h))).
    { apply filter_In. split; [exact K1|]. destruct (inb k (handed h)) eqn:E; [|reflexivity].
      apply inb_in in E. contradiction. }
    rewrite <- W in I. destruct (pending (run h)) as [|x p] eqn:E; [destruct I|].
    exists (el_key x). assert (O : outcome Wait h = Handed (el_key x)) by (rewrite wait_out, E; reflexivity).
    split; [exact O|]. destruct (wait_first h _ P O) as (a & b & A & _ & N). split; [|exact N].
    rewrite A. apply in_or_app. right. left. reflexivity.
Qed.
Print Assumptions accepted_handed_once.

(** C87: which one.  The component gets the connection that was accepted
    last; full claim (the one that was accepted first) refuted below. *)
Theorem newest_handed_first_partial :
  forall h k, plausible h -> outcome Wait h = Handed k ->
  exists newer older, accepted h = newer ++ k :: older /\
    (forall j, In j newer -> In j (handed h)) /\ ~ In k (handed h).
Proof. exact wait_first. Qed.
Print Assumptions newest_handed_first_partial.

(** Refuted: a connection that waits is served before those accepted after
    it. *)
Theorem waiting_in_order_refuted :
  ~ (forall h k j newer older, plausible h -> outcome Wait h = Handed k ->
       accepted h = newer ++ k :: older -> In j older -> In j (handed h)).
Proof.
  intros H.
  assert (P : plausible [Accept 2 6; Accept 1 5]).
  { apply pl_accept; [apply pl_accept; [constructor|split; cbn; tauto|]|split; cbn; lia|].
    - intros (k & [[]|[]] & _).
    - intros (k & [[K|[]]|[]] & _ & F). subst k. discriminate F. }
  pose proof (H _ 2%nat 1%nat [] [1%nat] P eq_refl eq_refl (or_introl eq_refl)) as Q. cbn in Q. destruct Q.
Qed.
Print Assumptions waiting_in_order_refuted.

(** * The connections in use *)

Definition sound (h : list event) (x : el) : Prop :=
  (In (el_key x) (handed h) \/ In (el_key x) (connected h)) /\ fd_of (el_key x) h = Some (el_fd x).

Lemma fd_keep : forall e h k fd, plausible (e :: h) -> fd_of k h = Some fd -> fd_of k (e :: h) = Some fd.
Proof.
  intros e h k fd P H. pose proof (fd_made _ _ _ H) as M. inv P; cbn; try exact H;
    match goal with F : fresh _ _ |- _ => destruct F as (F1 & F2) end;
    match goal with |- context [Nat.eqb ?a ?b] => destruct (Nat.eqb_spec a b) as [E|E] end;
    [subst; tauto|exact H|subst; tauto|exact H].
Qed.

Lemma handed_mono : forall e h k, In k (handed h) -> In k (handed (e :: h)).
Proof. intros e h k H. cbn. destruct (outcome e h); cbn; tauto. Qed.
Lemma connected_mono : forall e h k, In k (connected h) -> In k (connected (e :: h)).
Proof. intros e h k H. destruct e; cbn; tauto. Qed.

Lemma sound_keep : forall e h x, plausible (e :: h) -> sound h x -> sound (e :: h) x.
Proof.
  intros e h x P (A & B). split; [|apply fd_keep; assumption].
  destruct A as [A|A]; [left; apply handed_mono; exact A|right; apply connected_mono; exact A].
Qed.

Lemma pend_sound : forall h x, plausible h -> In x (pending (run h)) ->
  fd_of (el_key x) h = Some (el_fd x).
Proof.
  intros h x P. revert x. induction h as [|e h IH]; intros x X; [destruct X|].
  pose proof (plaus_tl _ _ P) as Q. specialize (IH Q).
  assert (K : In x (pending (run h)) -> fd_of (el_key x) (e :: h) = Some (el_fd x)).
  { intros Y. apply fd_keep; [exact P|apply IH; exact Y]. }
  rewrite run_cons in X. unfold step in X. destruct e; cbn [fst] in X.
  - cbn [pending] in X. destruct X as [<-|X]; [|apply K; exact X]. cbn. rewrite Nat.eqb_refl. reflexivity.
  - apply K. destruct (pending (run h)) eqn:E; cbn [fst pending] in X; [rewrite E in X; exact X|right; exact X].
  - apply K. exact X.
  - apply K. destruct (search dst (conns (run h))) as [[y|]|]; exact X.
  - apply K. destruct (taken t (busy (run h))) as [y|]; [|exact X].
    destruct (mem (el_key y) (conns (run h))); exact X.
  - apply K. destruct (by_fd fd (conns (run h))); exact X.
Qed.

Lemma search_in : forall d l x, search d l = Some (Some x) -> In x l.
Proof.
  induction l as [|a l IH]; intros x H; cbn in H; [discriminate|].
  destruct (el_dst a) as [n|]; [|discriminate]. destruct (name_eqb n d); [|right; apply IH; exact H].
  injection H as ->. left. reflexivity.
Qed.
Lemma taken_in : forall t l x, taken t l = Some x -> exists u, In (u, x) l.
Proof.
  induction l as [|[u y] l IH]; intros x H; cbn in H; [discriminate|].
  destruct (Nat.eqb u t); [injection H as ->; exists u; left; reflexivity|].
  destruct (IH x H) as (v & V). exists v. right. exact V.
Qed.

Lemma all_sound : forall h, plausible h ->
  (forall x, In x (conns (run h)) -> sound h x) /\
  (forall t x, In (t, x) (busy (run h)) -> sound h x).
Proof.
  induction h as [|e h IH]; intros P; [split; [intros x []|intros t x []]|].
  pose proof (plaus_tl _ _ P) as Q. destruct (IH Q) as (A & B).
  assert (A' : forall x, In x (conns (run h)) -> sound (e :: h) x)
    by (intros; apply sound_keep; [exact P|apply A; assumption]).
  assert (B' : forall t x, In (t, x) (busy (run h)) -> sound (e :: h) x)
    by (intros; apply sound_keep; [exact P|eapply B; eassumption]).
  rewrite run_cons. unfold step. destruct e; cbn [fst].
  - split; cbn; assumption.
  - destruct (pending (run h)) as [|y p] eqn:E; cbn [fst]; [split; assumption|].
    split; cbn; [|assumption]. intros x [<-|X]; [|apply A'; exact X].
    split.
    + left. cbn [handed]. rewrite wait_out, E. left. reflexivity.
    + apply fd_keep; [exact P|]. apply pend_sound; [exact Q|]. rewrite E. left. reflexivity.
  - split; cbn; [|assumption]. intros x [<-|X]; [|apply A'; exact X]. split.
    + right. left. reflexivity.
    + cbn. rewrite Nat.eqb_refl. reflexivity.
  - destruct (search dst (conns (run h))) as [[y|]|] eqn:E; cbn [fst]; try (split; assumption).
    split; cbn; [assumption|]. intros u x [X|X]; [|eapply B'; exact X]. injection X as <- <-.
    apply A'. eapply search_in; exact E.
  - destruct (taken t (busy (run h))) as [y|] eqn:E; cbn [fst]; [|split; assumption].
    destruct (mem (el_key y) (conns (run h))); cbn [fst]; [|split; assumption]. split; cbn.
    + intros x X. apply filter_In in X. apply A'. tauto.
    + intros u x X. apply filter_In in X. eapply B'. apply X.
  - destruct (by_fd fd (conns (run h))); split; assumption.
Qed.

Lemma mem_in : forall k l, mem k l = true <-> In k (keys l).
Proof.
  intros. unfold mem, keys. rewrite existsb_exists, in_map_iff. split.
  - intros (x & X & E). apply Nat.eqb_eq in E. exists x. tauto.
  - intros (x & E & X). exists x. split; [exact X|]. apply Nat.eqb_eq. exact E.
Qed.
Lemma del_keys : forall k j l, In j (keys (del k l)) <-> In j (keys l) /\ j <> k.
Proof.
  intros. unfold keys, del. rewrite !in_map_iff. split.
  - intros (x & E & X). apply filter_In in X. destruct X as (X & Y). split.
    + exists x. tauto.
    + intros Q. subst. rewrite Nat.eqb_refl in Y. discriminate.
  - intros ((x & E & X) & N). exists x. split; [exact E|]. apply filter_In. split; [exact X|].
    subst j. destruct (Nat.eqb_spec (el_key x) k); [congruence|reflexivity].
Qed.

Lemma handed_made : forall h, plausible h -> incl (handed h) (accepted h).
Proof. intros h P. destruct (accepted_handed_once h P) as (_ & I & _). exact I. Qed.

Lemma closed_made : forall h k, plausible h -> In k (closed h) ->
  In k (handed h) \/ In k (connected h).
Proof.
  induction h as [|e h IH]; intros k P H; [destruct H|]. pose proof (plaus_tl _ _ P) as Q.
  assert (K : In k (closed h) -> In k (handed (e :: h)) \/ In k (connected (e :: h))).
  { intros Y. destruct (IH k Q Y) as [Z|Z]; [left; apply handed_mono; exact Z|right; apply connected_mono; exact Z]. }
  cbn [closed] in H. destruct (outcome e h) eqn:O; try (apply K; exact H).
  destruct H as [<-|H]; [|apply K; exact H].
  unfold outcome, step in O. destruct e; cbn in O; try discriminate.
  - destruct (pending (run h)); discriminate.
  - destruct (search dst (conns (run h))) as [[y|]|]; discriminate.
  - destruct (taken t (busy (run h))) as [y|] eqn:E; [|discriminate].
    destruct (mem (el_key y) (conns (run h))); [|discriminate]. injection O as <- _.
    destruct (taken_in _ _ _ E) as (u & U). destruct (all_sound h Q) as (_ & B).
    destruct (B _ _ U) as ([A|A] & _); [left; apply handed_mono; exact A|right; apply connected_mono; exact A].
  - destruct (by_fd _ (conns (run h))); discriminate.
Qed.

(** The list holds exactly the connections in use. *)
Lemma conns_open : forall h, plausible h -> forall k, In k (keys (conns (run h))) <-> open k h.
Proof.
  induction h as [|e h IH]; intros P k; [split; [intros []|intros ([[]|[]] & _)]|].
  pose proof (plaus_tl _ _ P) as Q. specialize (IH Q).
  rewrite run_cons. unfold open. cbn [handed closed]. unfold outcome.
  destruct e as [a fd| |a fd d|t d|t|fd]; unfold step at 1 2 3; cbn [fst snd connected].
  - cbn [conns]. exact (IH k).
  - unfold step. destruct (pending (run h)) as [|x p] eqn:E; cbn [fst snd conns]; [exact (IH k)|].
    cbn [keys map In]. fold (keys (conns (run h))). rewrite IH. unfold open.
    assert (W : outcome Wait h = Handed (el_key x)) by (rewrite wait_out, E; reflexivity).
    destruct (wait_first h _ Q W) as (n & o & A & _ & N).
    split.
    + intros [<-|H]; [|tauto]. split; [tauto|]. intros C. apply closed_made in C; [|exact Q].
      destruct C as [C|C]; [contradiction|].
      assert (I : In (el_key x) (accepted h)) by (rewrite A; apply in_or_app; right; left; reflexivity).
      clear - C I Q. revert C I. induction Q as [|b fb h Q IH [F1 F2] U|b fb d h Q IH [F1 F2] U|h Q IH|t d h Q IH T|t h Q IH|fb h Q IH];
        cbn; intros C I; try (apply IH; assumption); try contradiction.
      * destruct I as [->|I]; [contradiction|apply IH; assumption].
      * destruct C as [->|C]; [contradiction|apply IH; assumption].
    + intros [[[<-|H]|H] H']; tauto.
  - cbn [conns keys map In el_key]. fold (keys (conns (run h))). rewrite IH. unfold open. inv P.
    match goal with F : fresh _ _ |- _ => destruct F as (F1 & F2) end. split.
    + intros [<-|H]; [|tauto]. split; [tauto|]. intros C. apply closed_made in C; [|exact Q].
      destruct C as [C|C]; [|contradiction]. apply F1. apply handed_made; assumption.
    + intros ([H|[<-|H]] & H'); tauto.
  - unfold step. destruct (search d (conns (run h))) as [[y|]|]; cbn [fst snd conns]; exact (IH k).
  - unfold step. destruct (taken t (busy (run h))) as [y|]; cbn [fst snd conns]; [|exact (IH k)].
    destruct (mem (el_key y) (conns (run h))) eqn:M; cbn [fst snd conns]; [|exact (IH k)].
    rewrite del_keys, IH. unfold open. cbn [In]. intuition congruence.
  - unfold step. destruct (by_fd fd (conns (run h))); cbn [fst snd]; exact (IH k).
Qed.

Lemma by_fd_some : forall fd l x, by_fd fd l = Some x -> In x l /\ el_fd x = fd.
Proof.
  induction l as [|a l IH]; intros x H; cbn in H; [discriminate|].
  destruct (Z.eqb_spec (el_fd a) fd) as [E|E]; [injection H as ->; split; [left; reflexivity|exact E]|].
  destruct (IH x H) as (I & F). split; [right; exact I|exact F].
Qed.
Lemma by_fd_find : forall fd l x, In x l -> el_fd x = fd -> exists y, by_fd fd l = Some y.
Proof.
  induction l as [|a l IH]; intros x H F; [destruct H|]. cbn.
  destruct (Z.eqb_spec (el_fd a) fd) as [E|E]; [eexists; reflexivity|].
  destruct H as [->|H]; [contradiction|]. apply (IH x); assumption.
Qed.

(** C87 (events go to the right connection).  In every plausible history,
    an event on a descriptor is passed on for a connection exactly if that
    connection was given to the component (or made by it), was not closed,
    and has that descriptor. *)
Theorem events_to_right_connection :
  forall h fd k, plausible h ->
  outcome (FlowEvent fd) h = Reported k <->
  ((In k (handed h) \/ In k (connected h)) /\ ~ In k (closed h) /\ fd_of k h = Some fd).
Proof.
  intros h fd k P. unfold outcome, step.
  assert (Lv : forall k, open k h -> live k h).
  { intros j (J1 & J2). split; [|exact J2]. destruct J1; [left; apply handed_made; assumption|right; assumption]. }
  split.
  - destruct (by_fd fd (conns (run h))) as [x|] eqn:E; [|discriminate]. cbn. intros Q. injection Q as <-.
    destruct (by_fd_some _ _ _ E) as (I & F). destruct (all_sound h P) as (A & _).
    destruct (A x I) as (S1 & S2). rewrite F in S2.
    assert (O : open (el_key x) h).
    { apply conns_open; [exact P|]. apply in_map. exact I. }
    destruct O as (O1 & O2). tauto.
  - intros (H1 & H2 & H3).
    assert (O : open k h) by (split; assumption).
    pose proof O as O'. apply conns_open in O'; [|exact P]. apply in_map_iff in O'.
    destruct O' as (x & Ek & I). destruct (all_sound h P) as (A & _). destruct (A x I) as (S1 & S2).
    rewrite Ek, H3 in S2. injection S2 as S2.
    destruct (by_fd_find fd _ x I (eq_sym S2)) as (y & Y). rewrite Y. cbn. f_equal.
    destruct (by_fd_some _ _ _ Y) as (I' & F'). destruct (A y I') as (T1 & T2). rewrite F' in T2.
    assert (Oy : open (el_key y) h) by (apply conns_open; [exact P|apply in_map; exact I']).
    apply (fd_unique h P _ _ fd); auto.
Qed.
Print Assumptions events_to_right_connection.

(** Refuted: an event on the flow of an open connection is passed on.  Not
    between the acceptance and the moment the component asks for it. *)
Theorem early_event_lost_refuted :
  ~ (forall h fd, plausible h -> in_use fd h -> exists k, outcome (FlowEvent fd) h = Reported k).
Proof.
  intros H.
  assert (P : plausible [Accept 1 5]).
  { apply pl_accept; [constructor|split; cbn; tauto|]. intros (k & [[]|[]] & _). }
  destruct (H _ 5%Z P) as (k & K).
  - exists 1%nat. cbn. split; [tauto|]. split; [tauto|reflexivity].
  - cbn in K. discriminate K.
Qed.
Print Assumptions early_event_lost_refuted.

(** * Disconnecting *)

Lemma name_eqb_spec : forall a b, name_eqb a b = true <-> a = b.
Proof. intros. unfold name_eqb. destruct (list_eq_dec N.eq_dec a b); split; congruence. Qed.


Lemma dst_made : forall h k d, dst_of k h = Some d -> In k (connected h).
Proof.
  induction h as [|e h IH]; intros k d H; cbn in H; [discriminate|].
  destruct e; cbn; try (apply (IH k d H)).
  destruct (Nat.eqb_spec k0 k) as [E|E]; [left; exact E|right; apply (IH k d H)].
Qed.

Lemma handed_nil : forall e h, handed (e :: h) = [] -> handed h = [].
Proof. intros e h. cbn. destruct (outcome e h); try tauto. discriminate. Qed.

Lemma conn_dst : forall h, plausible h -> handed h = [] ->
  forall x, In x (conns (run h)) -> exists d, dst_of (el_key x) h = Some d /\ el_dst x = Some (trunc d).
Proof.
  induction h as [|e h IH]; intros P Hn x X; [destruct X|].
  pose proof (plaus_tl _ _ P) as Q. specialize (IH Q (handed_nil _ _ Hn)).
  assert (K : In x (conns (run h)) -> exists d, dst_of (el_key x) (e :: h) = Some d /\ el_dst x = Some (trunc d)).
  { intros Y. destruct (IH x Y) as (d & D1 & D2). exists d. split; [|exact D2].
    destruct e; cbn; try exact D1. inv P.
    match goal with F : fresh _ _ |- _ => destruct F as (F1 & F2) end.
    destruct (Nat.eqb_spec k (el_key x)) as [E|E]; [|exact D1]. subst k.
    exfalso. apply F2. eapply dst_made; exact D1. }
  rewrite run_cons in X. destruct e as [a fd| |a fd d|t d|t|fd].
  - apply K. exact X.
  - cbn [handed] in Hn. rewrite wait_out in Hn. unfold step in X.
    destruct (pending (run h)); [apply K; exact X|discriminate].
  - cbn in X. destruct X as [<-|X]; [|apply K; exact X]. exists d. cbn. rewrite Nat.eqb_refl. split; reflexivity.
  - apply K. unfold step in X. destruct (search d (conns (run h))) as [[y|]|]; exact X.
  - apply K. unfold step in X. destruct (taken t (busy (run h))) as [y|]; [|exact X].
    destruct (mem (el_key y) (conns (run h))); [|exact X]. cbn in X. apply filter_In in X. tauto.
  - apply K. unfold step in X. destruct (by_fd fd (conns (run h))); exact X.
Qed.

Lemma search_spec : forall d l, (forall x, In x l -> el_dst x <> None) ->
  match search d l with
  | None => False
  | Some None => forall x, In x l -> el_dst x <> Some d
  | Some (Some x) => In x l /\ el_dst x = Some d
  end.
Proof.
  induction l as [|a l IH]; intros H; cbn; [intros x []|].
  assert (Ha : el_dst a <> None) by (apply H; left; reflexivity).
  destruct (el_dst a) as [n|] eqn:E; [|congruence].
  destruct (name_eqb n d) eqn:B.
  - apply name_eqb_spec in B. subst. split; [left; reflexivity|exact E].
  - assert (H' : forall x, In x l -> el_dst x <> None) by (intros x X; apply H; right; exact X).
    specialize (IH H'). destruct (search d l) as [[y|]|].
    + destruct IH. split; [right; assumption|assumption].
    + intros x [<-|X]; [|apply IH; exact X]. rewrite E. intros Q. injection Q as ->.
      assert (name_eqb d d = true) by (apply name_eqb_spec; reflexivity). congruence.
    + exact IH.
Qed.

Lemma trunc_short : forall d, (length d <= 64)%nat -> trunc d = d.
Proof.
  intros d H. unfold trunc, DST_MAX_STRLEN. destruct (Nat.ltb_spec 64 (length d)); [lia|reflexivity].
Qed.

(** C87 (disconnecting).  In a plausible history in which no accepted
    connection was given to the component, no other disconnect is under
    way and all destinations have at most 64 characters: disconnecting from
    a destination closes one connection to it, with its own descriptor, if
    there is one, and does nothing otherwise.  Missing for the full claim:
    see the three refutations below. *)
Theorem disconnect_closes_one_partial :
  forall h t d, plausible h -> handed h = [] -> busy (run h) = [] ->
  (forall k d', dst_of k h = Some d' -> (length d' <= 64)%nat) ->
  (exists k, dst_of k h = Some d /\ ~ In k (closed h)) ->
  exists k fd, outcome (Find t d) h = Nothing /\
    outcome (Remove t) (Find t d :: h) = Closed k fd /\
    dst_of k h = Some d /\ ~ In k (closed h) /\ fd_of k h = Some fd /\
    (forall j, open j (Remove t :: Find t d :: h) <-> open j h /\ j <> k).
Proof.
  intros h t d P Hn Hb Hl (k0 & K1 & K2).
  pose proof (conn_dst h P Hn) as CD.
  assert (NN : forall x, In x (conns (run h)) -> el_dst x <> None).
  { intros x X. destruct (CD x X) as (d' & _ & ->). discriminate. }
  pose proof (search_spec d _ NN) as SS. destruct (search d (conns (run h))) as [[x|]|] eqn:E; [|exfalso|contradiction].
  2: { assert (O : open k0 h).
       { split; [right; eapply dst_made; exact K1|exact K2]. }
       apply conns_open in O; [|exact P]. apply in_map_iff in O. destruct O as (y & Ey & Y).
       destruct (CD y Y) as (d' & D1 & D2). rewrite Ey, K1 in D1. injection D1 as <-.
       apply (SS y Y). rewrite D2. f_equal. apply trunc_short. apply (Hl k0). exact K1. }
  destruct SS as (I & Ed). destruct (CD x I) as (d' & D1 & D2). rewrite Ed in D2. injection D2 as D2.
  rewrite trunc_short in D2 by (apply (Hl _ _ D1)). subst d'.
  assert (O : open (el_key x) h) by (apply conns_open; [exact P|apply in_map; exact I]).
  assert (M : mem (el_key x) (conns (run h)) = true) by (apply mem_in; apply in_map; exact I).
  destruct (all_sound h P) as (A & _). destruct (A x I) as (S1 & S2).
  exists (el_key x), (el_fd x).
  assert (O1 : outcome (Find t d) h = Nothing) by (unfold outcome, step; rewrite E; reflexivity).
  assert (R1 : run (Find t d :: h) = State (pending (run h)) (conns (run h)) ((t, x) :: busy (run h))).
  { rewrite run_cons. unfold step. rewrite E. reflexivity. }
  assert (O2 : outcome (Remove t) (Find t d :: h) = Closed (el_key x) (el_fd x)).
  { unfold outcome, step. rewrite R1. cbn [busy conns taken]. rewrite Nat.eqb_refl, M. reflexivity. }
  split; [exact O1|]. split; [exact O2|]. split; [exact D1|]. split; [apply O|]. split; [exact S2|].
  intros j. unfold open.
  assert (Hh : handed (Remove t :: Find t d :: h) = handed h).
  { cbn [handed]. rewrite O2, O1. reflexivity. }
  assert (Hc : closed (Remove t :: Find t d :: h) = el_key x :: closed h).
  { cbn [closed]. rewrite O2, O1. reflexivity. }
  rewrite Hh, Hc. cbn [connected In]. intuition congruence.
Qed.
Print Assumptions disconnect_closes_one_partial.

Theorem disconnect_unknown_partial :
  forall h t d, plausible h -> handed h = [] ->
  (forall k d', dst_of k h = Some d' -> (length d' <= 64)%nat) ->
  (forall k, dst_of k h = Some d -> In k (closed h)) ->
  outcome (Find t d) h = Nothing /\ run (Find t d :: h) = run h.
Proof.
  intros h t d P Hn Hl Hk. pose proof (conn_dst h P Hn) as CD.
  assert (NN : forall x, In x (conns (run h)) -> el_dst x <> None).
  { intros x X. destruct (CD x X) as (d' & _ & ->). discriminate. }
  pose proof (search_spec d _ NN) as SS. rewrite run_cons. unfold outcome, step.
  destruct (search d (conns (run h))) as [[x|]|] eqn:E; [exfalso| |contradiction].
  - destruct SS as (I & Ed). destruct (CD x I) as (d' & D1 & D2). rewrite Ed in D2. injection D2 as D2.
    rewrite trunc_short in D2 by (apply (Hl _ _ D1)). subst d'.
    assert (O : open (el_key x) h) by (apply conns_open; [exact P|apply in_map; exact I]).
    destruct O as (_ & O). apply O. apply Hk. exact D1.
  - split; reflexivity.
Qed.
Print Assumptions disconnect_unknown_partial.

Ltac plaus := repeat first
  [ apply pl_nil | apply pl_wait | apply pl_find | apply pl_remove | apply pl_event
  | apply pl_accept | apply pl_connect ];
  try (split; cbn; lia); try reflexivity;
  try (intros (k & [K|K] & _ & F); cbn in K;
       repeat match goal with K : _ \/ _ |- _ => destruct K as [K|K] end; try contradiction;
       subst k; cbn in F; discriminate F).

(** Refuted: disconnecting never goes wrong.  With an accepted connection
    in the list, memory that was never written is compared. *)
Definition d_b : name := [98%N].
Theorem unset_destination_refuted :
  ~ (forall h t d, plausible h -> busy (run h) = [] -> (length d <= 64)%nat ->
       outcome (Find t d) h <> Undefined).
Proof.
  intros H. apply (H [Wait; Accept 2 6; Connect 1 5 d_b] 0%nat d_b).
  - plaus.
  - reflexivity.
  - cbn. lia.
  - reflexivity.
Qed.
Print Assumptions unset_destination_refuted.

(** Refuted: two threads that disconnect from the same destination take
    the same element. *)
Theorem double_disconnect_refuted :
  ~ (forall h t, plausible h -> handed h = [] -> outcome (Remove t) h <> Undefined).
Proof.
  intros H. apply (H [Remove 0; Find 1 d_b; Find 0 d_b; Connect 1 5 d_b] 1%nat).
  - plaus.
  - reflexivity.
  - reflexivity.
Qed.
Print Assumptions double_disconnect_refuted.

(** Refuted: a connection to a destination with a name of 65 characters
    cannot be disconnected, as only 64 are kept. *)
Theorem long_destination_refuted :
  ~ (forall h t d k, plausible h -> handed h = [] -> busy (run h) = [] ->
       dst_of k h = Some d -> ~ In k (closed h) ->
       exists j fd, outcome (Remove t) (Find t d :: h) = Closed j fd).
Proof.
  intros H. destruct (H [Connect 1 5 (repeat 97%N 65)] 0%nat (repeat 97%N 65) 1%nat) as (j & fd & Q).
  - plaus.
  - reflexivity.
  - reflexivity.
  - reflexivity.
  - cbn. tauto.
  - vm_compute in Q. discriminate Q.
Qed.
Print Assumptions long_destination_refuted.

Example connections :
  let h := [Wait; Accept 2 6; Connect 1 5 d_b] in
  plausible h /\ handed h = [2%nat] /\ outcome (FlowEvent 6) h = Reported 2 /\
  outcome (FlowEvent 5) h = Reported 1 /\ outcome (FlowEvent 7) h = Nothing /\
  plausible [Connect 1 5 d_b] /\ outcome (Remove 0) [Find 0 d_b; Connect 1 5 d_b] = Closed 1 5.
Proof. cbv zeta. split; [plaus|]. repeat (split; [reflexivity|]). split; [plaus|reflexivity]. Qed.
