(** C111: creating an IPCP gives a ready IPCP or nothing; destroying ends that IPCP only. *)
From Coq Require Import List ZArith Bool Lia.
Import ListNotations.
From Verif Require Import IrmIpcpModel IrmIpcpSpec.

Lemma exec_app : forall l1 l2 s, exec s (l1 ++ l2) = match exec s l1 with Some s' => exec s' l2 | None => None end.
Proof. induction l1 as [ | a l1 IH]; intros l2 s; simpl; auto. destruct (step a s); auto. Qed.

Lemma after_snoc : forall l a s, after (l ++ [a]) s -> exists s0, after l s0 /\ step a s0 = Some s.
Proof.
  unfold after. intros l a s H. rewrite exec_app in H.
  destruct (exec init l) as [s0 | ] eqn:E; [ | discriminate].
  exists s0. split; auto. simpl in H. destruct (step a s0); congruence.
Qed.

(** All states and steps; what a computation shows of each holds of all. *)
Definition all_p := [PSpawn; PCreate; PEnter; PSleep; PWaitBoot; PDestroy; PKill; PWaitKill; PDone true; PDone false; PAbort; PSegv].
Definition all_c := [NoChild; Starting; Ready; Leaving; Exiting; Dying; Zombie; Reaped].
Definition all_e := [None; Some INull; Some IBoot; Some IOper; Some IBootstrapped].
Definition all_a := [ASpawn true; ASpawn false; ACreate true; ACreate false; AEnter; AWake; ATimeout; AWait; ADestroy; AKill;
  CReport; CFail; CQuit; CTellNull; CStop; CProcExit; CExit; CCrash; OBootstrap; ORemove; OReap].
Definition every (f : act -> st -> bool) : bool :=
  forallb (fun a => forallb (fun p => forallb (fun c => forallb (fun e =>
    f a (St p c e true) && f a (St p c e false)) all_e) all_c) all_p) all_a.
Lemma every_all : forall f, every f = true -> forall a s, f a s = true.
Proof.
  intros f H a [p c e sp]. unfold every in H. rewrite forallb_forall in H.
  assert (Ha : In a all_a) by (destruct a as [[] | [] | | | | | | | | | | | | | | | | | ]; simpl; tauto).
  specialize (H a Ha). rewrite forallb_forall in H.
  assert (Hp : In p all_p) by (destruct p as [ | | | | | | | | [] | | ]; simpl; tauto).
  specialize (H p Hp). rewrite forallb_forall in H.
  assert (Hc : In c all_c) by (destruct c; simpl; tauto).
  specialize (H c Hc). rewrite forallb_forall in H.
  assert (He : In e all_e) by (destruct e as [[] | ]; simpl; tauto).
  specialize (H e He). apply andb_prop in H. destruct sp; tauto.
Qed.
(** [f] holds of the states before and after every step. *)
Definition steps (f : act -> st -> st -> bool) (a : act) (s : st) : bool :=
  match step a s with Some s' => f a s s' | None => true end.
Lemma steps_all : forall f, every (steps f) = true -> forall a s s', step a s = Some s' -> f a s s' = true.
Proof. intros f H a s s' E. pose proof (every_all _ H a s) as K. unfold steps in K. rewrite E in K. exact K. Qed.

(** What every state the system can be in has. *)
Definition nothingb (s : st) : bool :=
  match entry s, spawned s, proc s with None, false, (NoChild | Reaped) => true | _, _, _ => false end.
Definition inv (s : st) : bool :=
  Bool.eqb (spawned s) (match entry s with None => false | Some _ => true end) &&
  match at_ s, proc s, entry s with
  | PSpawn, NoChild, None => true
  | PSpawn, _, _ => false
  | (PCreate | PKill | PWaitKill), NoChild, _ => false
  | (PCreate | PKill | PWaitKill), _, None => true
  | (PCreate | PKill | PWaitKill), _, _ => false
  | PDestroy, Reaped, _ => true
  | PDestroy, _, _ => false
  | PDone false, _, _ => nothingb s
  | _, NoChild, _ => false
  | _, _, _ => true
  end.
Lemma after_inv : forall l s, after l s -> inv s = true.
Proof.
  induction l as [ | a l IH] using rev_ind; intros s H.
  - inversion H; subst. reflexivity.
  - apply after_snoc in H. destruct H as (s0 & H0 & H). specialize (IH s0 H0).
    assert (K : implb (inv s0) (inv s) = true)
      by (apply (steps_all (fun _ s s' => implb (inv s) (inv s')) eq_refl a); auto).
    rewrite IH in K. exact K.
Qed.

(** The entry says ready, or bootstrapped, only if the IPCP said so. *)
Definition told (s : st) : bool :=
  match entry s with Some IOper | Some IBootstrapped => true | _ => false end ||
  match proc s with Ready => true | _ => false end || match at_ s with PDone true => true | _ => false end.
Definition is_report (a : act) : bool := match a with CReport => true | _ => false end.
Lemma told_inv : forall l s, after l s -> told s = true -> In CReport l.
Proof.
  induction l as [ | a l IH] using rev_ind; intros s H T.
  - inversion H; subst. discriminate.
  - apply after_snoc in H. destruct H as (s0 & H0 & H). apply in_or_app.
    assert (K : implb (told s) (told s0 || is_report a) = true)
      by (apply (steps_all (fun a s s' => implb (told s') (told s || is_report a)) eq_refl a); auto).
    rewrite T in K. simpl in K. apply orb_prop in K. destruct K as [K | K].
    + left. apply (IH s0); auto.
    + right. left. destruct a; try discriminate. reflexivity.
Qed.

(** When the request is answered well, at that moment there is a ready IPCP. *)
Theorem create_whole : forall l a s0 s, after l s0 -> ~ answered s0 -> step a s0 = Some s ->
  at_ s = PDone true -> whole (l ++ [a]) s.
Proof.
  intros l a s0 s H0 N H D.
  assert (A : after (l ++ [a]) s) by (unfold after in *; rewrite exec_app, H0; simpl; rewrite H; reflexivity).
  pose proof (after_inv _ _ A) as I.
  assert (K : match at_ s with
              | PDone true => match at_ s0, entry s with PDone _, _ => true | _, Some IOper => true | _, _ => false end
              | _ => true end = true)
    by (apply (steps_all (fun _ s0 s => match at_ s with
              | PDone true => match at_ s0, entry s with PDone _, _ => true | _, Some IOper => true | _, _ => false end
              | _ => true end) eq_refl a); auto).
  rewrite D in K.
  assert (E : entry s = Some IOper).
  { destruct (at_ s0) eqn:A0; try (exfalso; apply N; eexists; exact A0);
      destruct (entry s) as [[] | ]; try discriminate K; reflexivity. }
  repeat split; auto.
  - unfold inv in I. rewrite E in I. apply andb_prop in I. destruct I as [I _].
    destruct (spawned s); auto.
  - eapply told_inv; eauto. unfold told. rewrite E. reflexivity.
Qed.

(** When it is answered with an error, then and ever after nothing is left. *)
Theorem create_nothing : forall l s, after l s -> at_ s = PDone false -> nothing s.
Proof.
  intros l s H D. apply after_inv in H. unfold inv in H. apply andb_prop in H. destruct H as [_ H]. rewrite D in H.
  unfold nothing. unfold nothingb in H.
  destruct (proc s), (entry s), (spawned s); try discriminate H; auto.
Qed.

(** An answer is final. *)
Theorem answer_final : forall l s s' ok, at_ s = PDone ok -> exec s l = Some s' -> at_ s' = PDone ok.
Proof.
  induction l as [ | a l IH]; intros s s' ok D H; simpl in H.
  - congruence.
  - destruct (step a s) as [s1 | ] eqn:E; [ | discriminate]. apply (IH s1); auto.
    destruct s as [p c e sp]. simpl in D. subst p.
    destruct a as [[] | [] | | | | | | | | | | | | | | | | | ]; destruct c; simpl in E; try discriminate;
      destruct e as [[] | ]; simpl in E; inversion E; subst; reflexivity.
Qed.

(** No assert fails unless another request bootstraps the IPCP before the creation is
    answered; no null pointer is followed unless the pid is removed from the registry. *)
Theorem create_safe_partial : forall l s, after l s ->
  (at_ s = PAbort -> In OBootstrap l) /\ (at_ s = PSegv -> In ORemove l \/ In CProcExit l).
Proof.
  intros l s H.
  pose (ab := fun s => match at_ s, entry s with PAbort, _ | _, Some IBootstrapped => true | _, _ => false end).
  pose (sg := fun s => match at_ s, entry s with PSegv, _ | PEnter, None => true | _, _ => false end).
  pose (removes := fun a => match a with ORemove | CProcExit => true | _ => false end).
  pose (boots := fun a => match a with OBootstrap => true | _ => false end).
  enough ((ab s = true -> In OBootstrap l) /\ (sg s = true -> In ORemove l \/ In CProcExit l)) as [A B].
  { split; intro X; [apply A; unfold ab | apply B; unfold sg]; rewrite X; reflexivity. }
  revert s H. induction l as [ | a l IH] using rev_ind; intros s H.
  - inversion H; subst. split; intro X; discriminate X.
  - apply after_snoc in H. destruct H as (s0 & H0 & H).
    destruct (IH s0 H0) as [A B]. rewrite !in_app_iff.
    assert (K : implb (ab s) (ab s0 || boots a) && implb (sg s) (sg s0 || removes a) = true)
      by (apply (steps_all (fun a s0 s => implb (ab s) (ab s0 || boots a) && implb (sg s) (sg s0 || removes a)) eq_refl a); auto).
    apply andb_prop in K. destruct K as [K1 K2]. split; intro T.
    + rewrite T in K1. simpl in K1. apply orb_prop in K1. destruct K1 as [K | K]; auto.
      right. left. destruct a; try discriminate K. reflexivity.
    + rewrite T in K2. simpl in K2. apply orb_prop in K2. destruct K2 as [K | K].
      * destruct (B K); auto.
      * destruct a; try discriminate K; simpl; auto.
Qed.

(** If nothing fails, no one else touches the IPCP, and it reports only once it is in the
    registry, the creation is not given up; and as soon as the IPCP has reported, the
    next step of the request answers it well. *)
Theorem create_starts_partial : forall l1 l2 s1 s,
  (forall a, In a (l1 ++ CReport :: l2) -> ~ fault a /\ ~ other a) ->
  ~ In CReport l1 -> after l1 s1 -> entry s1 <> None -> exec s1 (CReport :: l2) = Some s ->
  at_ s = PDone true \/
  (exists a s', In a [AEnter; AWake] /\ step a s = Some s' /\ at_ s' = PDone true).
Proof.
  intros l1 l2 s1 s G N1 H1 E1 H2.
  assert (K : forall l s, (forall a, In a l -> ~ fault a /\ ~ other a) -> ~ In CReport l -> after l s ->
    s = init \/ s = St PCreate Starting None false \/ s = St PEnter Starting (Some IBoot) true \/
    s = St PSleep Starting (Some IBoot) true).
  { clear. induction l as [ | a l IH] using rev_ind; intros s G N H.
    - left. inversion H. reflexivity.
    - apply after_snoc in H. destruct H as (s0 & H0 & H).
      assert (Ga : ~ fault a /\ ~ other a) by (apply G, in_or_app; right; left; reflexivity).
      destruct (IH s0) as [X | [X | [X | X]]]; auto;
        try (intros b B; apply G, in_or_app; auto);
        try (intro B; apply N, in_or_app; auto);
        subst s0; destruct a as [[] | [] | | | | | | | | | | | | | | | | | ]; simpl in H; try discriminate;
        try (inversion H; subst; simpl; auto; fail);
        exfalso; destruct Ga as [Ga Gb];
        try (apply Ga; unfold fault; simpl; tauto); try (apply Gb; unfold other; simpl; tauto);
        apply N, in_or_app; right; left; reflexivity. }
  assert (K2 : forall l s s', (forall a, In a l -> ~ fault a /\ ~ other a) ->
    (s = St PEnter Ready (Some IOper) true \/ s = St PSleep Ready (Some IOper) true \/
     s = St (PDone true) Ready (Some IOper) true) -> exec s l = Some s' ->
    (s' = St PEnter Ready (Some IOper) true \/ s' = St PSleep Ready (Some IOper) true \/
     s' = St (PDone true) Ready (Some IOper) true)).
  { clear. induction l as [ | a l IH]; intros s s' G X H; simpl in H.
    - inversion H; subst. auto.
    - destruct (step a s) as [s2 | ] eqn:E; [ | discriminate].
      apply (IH s2 s'); auto; try (intros b B; apply G; right; auto).
      destruct (G a (or_introl eq_refl)) as [Ga Gb]. clear IH H.
      destruct X as [X | [X | X]]; subst s; destruct a as [[] | [] | | | | | | | | | | | | | | | | | ];
        simpl in E; try discriminate; try (inversion E; subst; auto; fail);
        exfalso; try (apply Ga; unfold fault; simpl; tauto); apply Gb; unfold other; simpl; tauto. }
  assert (X : s = St PEnter Ready (Some IOper) true \/ s = St PSleep Ready (Some IOper) true \/
              s = St (PDone true) Ready (Some IOper) true).
  { simpl in H2. destruct (K l1 s1) as [X | [X | [X | X]]]; auto;
      try (intros b B; apply G, in_or_app; auto); subst s1; simpl in *;
      try congruence; try discriminate;
      (eapply K2; [ | | exact H2]; [intros b B; apply G, in_or_app; right; right; exact B | auto]). }
  destruct X as [X | [X | X]]; subst s; auto; right.
  - exists AEnter. eexists. simpl. auto.
  - exists AWake. eexists. simpl. auto.
Qed.

(** A creation that is given up is answered as soon as the process has ended. *)
Theorem create_ends_partial : forall l s, after l s -> at_ s = PWaitBoot -> proc s = Zombie \/ proc s = Reaped ->
  exists s', exec s [AWait; ADestroy] = Some s' /\ at_ s' = PDone false.
Proof.
  intros l [p c e sp] H A B. simpl in *. subst p.
  destruct B; subst c; simpl; eexists; split; reflexivity.
Qed.

(** * What is false *)

(** An IPCP that starts without fault is not always created: when it reports before the IRMd
    has put it in the registry, it gives up and so does the IRMd. *)
Definition early := [ASpawn true; CReport; ACreate true; CTellNull; AEnter; CProcExit; CExit; AWait; ADestroy].
Theorem create_starts_refuted : exists l s, (forall a, In a l -> ~ fault a /\ ~ other a) /\ In CReport l /\
  after l s /\ at_ s = PDone false.
Proof.
  exists early. eexists. split; [ | split; [ | split; [reflexivity | reflexivity]]].
  - intros a A. unfold fault, other, early in *. simpl in *. intuition (subst; discriminate).
  - unfold early. simpl. auto.
Qed.

(** A creation need not be answered: when the IPCP is late the IRMd waits for it to end, and
    does so as long as it lives, while it is in the registry as ready. *)
Definition late := [ASpawn true; ACreate true; AEnter; ATimeout; CReport].
Theorem create_ends_refuted : exists l s, (forall a, In a l -> ~ other a) /\ after l s /\
  proc s = Ready /\ entry s = Some IOper /\
  forall l' s', (forall a, In a l' -> ~ ends a) -> exec s l' = Some s' -> ~ answered s' /\ ~ crashed s'.
Proof.
  exists late. eexists. split; [ | split; [reflexivity | split; [reflexivity | split; [reflexivity | ]]]].
  - intros a A. unfold other, late in *. simpl in *. intuition (subst; discriminate).
  - cbn.
    assert (K : forall l' s s', at_ s = PWaitBoot -> proc s = Ready -> (forall a, In a l' -> ~ ends a) ->
                exec s l' = Some s' -> at_ s' = PWaitBoot).
    { induction l' as [ | a l' IH]; intros s s' A B G H; simpl in H.
      - congruence.
      - destruct (step a s) as [s1 | ] eqn:E; [ | discriminate].
        assert (Ga := G a (or_introl eq_refl)).
        destruct s as [p c e sp]. simpl in A, B. subst p c.
        apply (IH s1); auto; try (intros b X; apply G; right; auto);
          destruct a as [[] | [] | | | | | | | | | | | | | | | | | ]; simpl in E; try discriminate;
          try (destruct e as [[] | ]; inversion E; subst; reflexivity);
          exfalso; apply Ga; unfold ends; simpl; tauto. }
    intros l' s' G H. apply K in H; auto.
    unfold answered, crashed. rewrite H. split; [intros [ok X] | intros [X | X]]; discriminate.
Qed.

(** The IRMd can be brought down during a creation: by bootstrapping the IPCP at once, by
    removing its pid, and by an IPCP that ends at once. *)
Theorem create_safe_refuted :
  (exists l s, In OBootstrap l /\ ~ In ORemove l /\ (forall a, In a l -> ~ fault a) /\ after l s /\ at_ s = PAbort) /\
  (exists l s, In ORemove l /\ (forall a, In a l -> ~ fault a) /\ after l s /\ at_ s = PSegv) /\
  (exists l s, (forall a, In a l -> ~ other a) /\ after l s /\ at_ s = PSegv).
Proof.
  split; [ | split].
  - exists [ASpawn true; ACreate true; AEnter; CReport; OBootstrap; AWake]. eexists.
    split; [simpl; tauto | split; [ | split; [ | split; reflexivity]]].
    + simpl. intuition discriminate.
    + intros a A. unfold fault. simpl in *. intuition (subst; discriminate).
  - exists [ASpawn true; ACreate true; ORemove; AEnter]. eexists.
    split; [simpl; tauto | split; [ | split; reflexivity]].
    intros a A. unfold fault. simpl in *. intuition (subst; discriminate).
  - exists [ASpawn true; ACreate true; CQuit; CProcExit; AEnter]. eexists.
    split; [ | split; reflexivity].
    intros a A. unfold other. simpl in *. intuition (subst; discriminate).
Qed.

(** The hypotheses are met. *)
Definition usual := [ASpawn true; ACreate true; AEnter; CReport].
Example create_whole_met : exists s0 s, after usual s0 /\ ~ answered s0 /\ step AWake s0 = Some s /\ at_ s = PDone true.
Proof. do 2 eexists. split; [reflexivity | split; [ | split; reflexivity]]. intros [ok H]. discriminate. Qed.
Example create_nothing_met : exists s, after [ASpawn true; ACreate false; AKill; CCrash; AWait] s /\ at_ s = PDone false.
Proof. eexists. split; reflexivity. Qed.
Example create_starts_met : (forall a, In a ([ASpawn true; ACreate true; AEnter] ++ CReport :: [AWake]) -> ~ fault a /\ ~ other a) /\
  ~ In CReport [ASpawn true; ACreate true; AEnter] /\
  exists s1 s, after [ASpawn true; ACreate true; AEnter] s1 /\ entry s1 <> None /\ exec s1 [CReport; AWake] = Some s.
Proof.
  split; [ | split].
  - intros a A. unfold fault, other. simpl in *. intuition (subst; discriminate).
  - simpl. intuition discriminate.
  - do 2 eexists. split; [reflexivity | split; [simpl; discriminate | reflexivity]].
Qed.
Example create_ends_met : exists s, after (late ++ [CStop; CProcExit; CExit]) s /\ at_ s = PWaitBoot /\ proc s = Zombie.
Proof. eexists. split; [reflexivity | split; reflexivity]. Qed.

(** * Destroying *)
Local Open Scope Z_scope.

Lemma without_iff : forall n l m, In m (without n l) <-> In m l /\ m <> n.
Proof.
  intros. unfold without. rewrite filter_In. rewrite negb_true_iff, Z.eqb_neq. tauto.
Qed.

(** The pid of a process that runs: that process is gone, and no other. *)
Theorem destroy_partial : forall n s s' r, 0 < n -> In n (map pid (procs s)) -> irm_destroy n s = (s', r) ->
  r = 0 /\ only_gone n s s'.
Proof.
  intros n s s' r N I H. unfold irm_destroy in H.
  replace (n <? 0) with false in H by (symmetry; apply Z.ltb_ge; lia).
  unfold destroy_ipcp in H.
  assert (K : forall p, signalled n p = (pid p =? n)).
  { intro p. unfold signalled. replace (0 <? n) with true by (symmetry; apply Z.ltb_lt; lia). reflexivity. }
  replace (existsb (signalled n) (procs s)) with true in H.
  - inversion H; subst; clear H. split; auto. unfold only_gone. simpl.
    split; [ | split; [ | split]]; intros; try apply without_iff.
    rewrite filter_In, K, negb_true_iff, Z.eqb_neq. tauto.
  - symmetry. apply existsb_exists. apply in_map_iff in I. destruct I as (p & E & I).
    exists p. split; auto. rewrite K. apply Z.eqb_eq. auto.
Qed.

(** A pid that no process has, or a negative one: an error, and nothing changes. *)
Theorem destroy_none : forall n s, n <> 0 -> ~ In n (map pid (procs s)) ->
  fst (irm_destroy n s) = s /\ snd (irm_destroy n s) < 0.
Proof.
  intros n s N I. unfold irm_destroy. destruct (n <? 0) eqn:L; simpl; [split; auto; lia | ].
  apply Z.ltb_ge in L. unfold destroy_ipcp.
  replace (existsb (signalled n) (procs s)) with false; [simpl; split; auto; lia | ].
  symmetry. apply not_true_is_false. intro X. apply existsb_exists in X. destruct X as (p & P & X).
  unfold signalled in X. replace (0 <? n) with true in X by (symmetry; apply Z.ltb_lt; lia).
  apply Z.eqb_eq in X. apply I. rewrite <- X. apply in_map. auto.
Qed.

(** Not only IPCPs are destroyed: any process is ended, and the number 0 ends the IRMd and
    every process of its group. *)
Theorem destroy_refuted :
  (exists n s, ~ In n (ipcps s) /\ In n (map pid (procs s)) /\
     snd (irm_destroy n s) = 0 /\ ~ In n (map pid (procs (fst (irm_destroy n s))))) /\
  (forall s p, In p (procs s) -> mine p = true ->
     snd (irm_destroy 0 s) = 0 /\ forall q, mine q = true -> ~ In q (procs (fst (irm_destroy 0 s)))).
Proof.
  split.
  - exists 7, (Sys [Pr 5 true; Pr 6 true; Pr 7 false] [6] [6] [6]). simpl.
    repeat split; intuition discriminate.
  - intros s p P M. unfold irm_destroy, destroy_ipcp. simpl.
    replace (existsb (signalled 0) (procs s)) with true; simpl.
    + split; auto. intros q Q I. apply filter_In in I. destruct I as [_ I].
      unfold signalled in I. simpl in I. rewrite Q in I. discriminate.
    + symmetry. apply existsb_exists. exists p. split; auto.
Qed.
Example destroy_met : 0 < 6 /\ In 6 (map pid (procs (Sys [Pr 5 true; Pr 6 true] [6] [6] [6]))) /\
  irm_destroy 6 (Sys [Pr 5 true; Pr 6 true] [6] [6] [6]) = (Sys [Pr 5 true] [] [] [], 0).
Proof. repeat split. simpl. auto. Qed.
Example destroy_none_met : ~ In 9 (map pid (procs (Sys [Pr 5 true] [] [] []))).
Proof. simpl. intuition discriminate. Qed.

Print Assumptions create_whole.
Print Assumptions create_nothing.
Print Assumptions answer_final.
Print Assumptions create_safe_partial.
Print Assumptions create_starts_partial.
Print Assumptions create_ends_partial.
Print Assumptions create_starts_refuted.
Print Assumptions create_ends_refuted.
Print Assumptions create_safe_refuted.
Print Assumptions destroy_partial.
Print Assumptions destroy_none.
Print Assumptions destroy_refuted.
