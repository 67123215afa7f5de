(** C107: the linked lists are lists.  C108: queues. *)
From Coq Require Import List Arith Bool Lia.
From Verif Require Import ListModel ListSpec ListProofs.
Import ListNotations.

(** Every history of calls, on any number of lists, from memory with anything in it. *)
Theorem lists_are_lists : forall m0 os L, history os L ->
  forall h l, L h = Some l -> NoDup (h :: l) /\ shows (fold_left exec os m0) h l.
Proof.
  intros m0 os L H h l E. pose proof (proj1 (inv_history m0 os L H) h l E) as R.
  split; [exact (proj1 R)|apply ring_shows; exact R].
Qed.
Print Assumptions lists_are_lists.

(** No element is in two lists, or twice in one. *)
Theorem lists_apart : forall os L, history os L -> forall h1 l1 h2 l2 x,
  L h1 = Some l1 -> L h2 = Some l2 -> In x (h1 :: l1) -> In x (h2 :: l2) -> h1 = h2.
Proof. intros os L H. exact (proj2 (inv_history (Mem (fun _ => 0) (fun _ => 0)) os L H)). Qed.
Print Assumptions lists_apart.

(** Deleting twice is harmless. *)
Theorem del_again : forall m0 os L e, history os L -> may L (Del e) ->
  history (os ++ [Del e; Del e]) (means (means L (Del e)) (Del e)) /\
  (forall h, means (means L (Del e)) (Del e) h = means L (Del e) h) /\
  (forall x, nxt (fold_left exec (os ++ [Del e; Del e]) m0) x = nxt (fold_left exec (os ++ [Del e]) m0) x /\
             prv (fold_left exec (os ++ [Del e; Del e]) m0) x = prv (fold_left exec (os ++ [Del e]) m0) x).
Proof.
  intros m0 os L e H M. split; [|split].
  - replace (os ++ [Del e; Del e]) with ((os ++ [Del e]) ++ [Del e]) by (rewrite <- app_assoc; reflexivity).
    apply HOp; [apply HOp; assumption|]. right. apply upd_same.
  - intro h. cbn [means]. destruct (Nat.eq_dec h e) as [->|N]; [rewrite !upd_same; reflexivity|].
    rewrite !(upd_other _ _ e _ h) by exact N. destruct (L h) as [l|]; [|reflexivity]. cbn [option_map]. f_equal.
    apply remove_out. intro J. apply remove_in in J. destruct J as [_ J]. apply J. reflexivity.
  - intro x. pose proof (inv_history m0 _ _ (HOp os L (Del e) H M)) as I.
    rewrite !fold_left_app in *. cbn [fold_left exec] in *. apply del_alone. apply (proj1 I). apply upd_same.
Qed.
Print Assumptions del_again.

(** The loop that may delete and free the element it is at visits every element once, in
    order, touches nothing that was freed, and leaves exactly the others; no other
    list changes. *)
Theorem for_each_safe_all : forall m0 os L h l d fuel, history os L -> L h = Some l -> length l < fuel ->
  exists m', list_for_each_safe fuel h d (fold_left exec os m0) = Some (l, m') /\
    shows m' h (filter (fun x => negb (d x)) l) /\
    forall g k, L g = Some k -> g <> h -> shows m' g k.
Proof.
  intros m0 os L h l d fuel H E F. pose proof (inv_history m0 os L H) as I.
  set (m := fold_left exec os m0) in *. pose proof (proj1 I h l E) as R.
  exists (del_all (filter d l) m).
  assert (IN : forall x, In x (filter d l) -> In x l) by (intros x J; apply filter_In in J; tauto).
  destruct (inv_del_all (filter d l) m L I) as [L' [I' E']].
  { intros x J. left. exists h, l. split; [exact E|exact (IN x J)]. }
  assert (HN : forall g k, L g = Some k -> ~ In g (filter d l)).
  { intros g k G J. apply IN in J.
    assert (g = h) by (eapply (proj2 I); [exact G|exact E|left; reflexivity|right; exact J]). subst g.
    destruct R as [ND _]. inversion ND; contradiction. }
  split; [|split].
  - unfold list_for_each_safe. rewrite (chain_first _ _ _ _ (proj2 R)).
    apply (safe_runs h d l [] m [] fuel); [exact R|intros x []|exact F].
  - apply ring_shows. apply (proj1 I').
    rewrite E' by (exact (HN h l E)). rewrite E. cbn [option_map]. f_equal.
    apply filter_ext_in. intros x J. f_equal. destruct (d x) eqn:D.
    + apply existsb_exists. exists x. split; [apply filter_In; split; assumption|apply Nat.eqb_refl].
    + destruct (existsb (Nat.eqb x) (filter d l)) eqn:B; [|reflexivity].
      apply existsb_exists in B. destruct B as [y [B1 B2]]. apply Nat.eqb_eq in B2. subst y.
      apply filter_In in B1. destruct B1. congruence.
  - intros g k G N. apply ring_shows. apply (proj1 I'). rewrite E' by (exact (HN g k G)). rewrite G. cbn [option_map]. f_equal.
    rewrite <- (filter_ext_in (fun _ => true)); [clear; induction k as [|x t IH]; cbn; [reflexivity|f_equal; exact IH]|].
    intros x J. symmetry. apply negb_true_iff. destruct (existsb (Nat.eqb x) (filter d l)) eqn:B; [|reflexivity].
    exfalso. apply existsb_exists in B. destruct B as [y [B1 B2]]. apply Nat.eqb_eq in B2. subst y.
    apply N. eapply (proj2 I); [exact G|exact E|right; exact J|right; exact (IN x B1)].
Qed.
Print Assumptions for_each_safe_all.

(** Without the rule that a new element is in no list: adding an element a second time
    loses the rest of the list, and a loop over it never ends. *)
Definition zero : mem := Mem (fun _ => 0) (fun _ => 0).
Theorem add_twice_loops : forall fuel,
  list_for_each fuel 1 (fold_left exec [Init 1; Add 2 1; Add 2 1] zero) = None.
Proof.
  intro fuel. unfold list_for_each.
  assert (E : forall p, p = 2 -> each fuel 1 p (fold_left exec [Init 1; Add 2 1; Add 2 1] zero) = None).
  { induction fuel as [|f IH]; intros p ->; [reflexivity|]. cbn [each]. change (2 =? 1) with false. cbv iota.
    rewrite IH; [reflexivity|vm_compute; reflexivity]. }
  apply E. vm_compute. reflexivity.
Qed.
Print Assumptions add_twice_loops.

(** A history with two lists in which each call is made. *)
Example history_met : exists L, history [Init 1; Init 2; Add 10 1; AddTail 11 1; Add 12 2; Del 10; Move 11 2; AddTail 10 2] L /\
  L 1 = Some [] /\ L 2 = Some [11; 12; 10].
Proof.
  eexists. split.
  - change [Init 1; Init 2; Add 10 1; AddTail 11 1; Add 12 2; Del 10; Move 11 2; AddTail 10 2]
      with ((((((((([] ++ [Init 1]) ++ [Init 2]) ++ [Add 10 1]) ++ [AddTail 11 1]) ++ [Add 12 2]) ++ [Del 10]) ++ [Move 11 2]) ++ [AddTail 10 2])).
    repeat apply HOp; try apply HNil.
    + left. split; [reflexivity|]. intros [h [l [E _]]]. discriminate.
    + left. split; [reflexivity|]. intros [h [l [E J]]]. cbn in E. unfold upd in E.
      destruct (h =? 1); [injection E as <-; destruct J|discriminate].
    + split; [discriminate|]. split; [|discriminate]. left. split; [reflexivity|]. intros [h [l [E J]]]. cbn in E. unfold upd in E.
      destruct (h =? 2); [injection E as <-; destruct J|]. destruct (h =? 1); [injection E as <-; destruct J|discriminate].
    + split; [discriminate|]. split; [|discriminate]. left. split; [reflexivity|]. intros [h [l [E J]]]. cbn in E. unfold upd in E.
      destruct (h =? 1); [injection E as <-; cbn in J; lia|]. destruct (h =? 10); [discriminate|].
      destruct (h =? 2); [injection E as <-; destruct J|discriminate].
    + split; [discriminate|]. split; [|discriminate]. left. split; [reflexivity|]. intros [h [l [E J]]]. cbn in E. unfold upd in E.
      destruct (h =? 1); [injection E as <-; cbn in J; lia|]. destruct (h =? 11); [discriminate|]. destruct (h =? 10); [discriminate|].
      destruct (h =? 2); [injection E as <-; destruct J|discriminate].
    + left. exists 1, [10; 11]. split; [reflexivity|left; reflexivity].
    + split; [discriminate|]. split; [|discriminate]. left. exists 1, [11]. split; [reflexivity|left; reflexivity].
    + split; [discriminate|]. split; [|discriminate]. right. reflexivity.
  - split; reflexivity.
Qed.

(** ** Queues *)
Lemma queue_snoc : forall os o, queue (os ++ [o]) = queue_step (queue os) o.
Proof. intros. unfold queue. rewrite fold_left_app. reflexivity. Qed.
Lemma puts_app : forall a b, puts (a ++ b) = puts a ++ puts b.
Proof. induction a as [|[n|] t IH]; intro b; cbn; [reflexivity|f_equal; apply IH|apply IH]. Qed.
Lemma fresh_snoc : forall h os o, fresh h (os ++ [o]) -> fresh h os.
Proof.
  intros h os o F a n b E. apply (F a n (b ++ [o])). rewrite E, <- app_assoc. reflexivity.
Qed.
Lemma init_ring : forall h m, ring (list_head_init h m) h [].
Proof.
  intros h m. split; [repeat constructor; intros []|].
  unfold list_head_init, set_nxt, set_prv. cbn [chain nxt prv]. rewrite !upd_same. split; reflexivity.
Qed.

(** What was taken and what waits are, together, what was put in, in that order. *)
Theorem queue_keeps_order : forall os, taken os ++ waiting os = puts os.
Proof.
  unfold taken, waiting. induction os as [|o os IH] using rev_ind; [reflexivity|].
  rewrite queue_snoc, puts_app, <- IH. destruct (queue os) as [t w]. destruct o as [n|]; cbn.
  - rewrite app_assoc. reflexivity.
  - destruct w as [|e w]; cbn; rewrite ?app_nil_r; [reflexivity|]. rewrite <- app_assoc. reflexivity.
Qed.
Print Assumptions queue_keeps_order.

(** Commands and messages are taken in the order in which they came. *)
Theorem commands_in_order : forall h m os, fresh h os ->
  fst (qrun pop_last h os m) = taken os /\ shows (snd (qrun pop_last h os m)) h (rev (waiting os)).
Proof.
  intros h m os F.
  assert (G : fst (qrun pop_last h os m) = taken os /\ ring (snd (qrun pop_last h os m)) h (rev (waiting os))).
  2:{ destruct G as [A B]. split; [exact A|apply ring_shows; exact B]. }
  revert F. unfold taken, waiting. induction os as [|o os IH] using rev_ind; intro F.
  - split; [reflexivity|apply init_ring].
  - specialize (IH (fresh_snoc _ _ _ F)). pose proof (F os) as F1.
    unfold qrun in *. rewrite queue_snoc, fold_left_app. cbn [fold_left]. unfold waiting in F1.
    destruct (fold_left (qstep pop_last h) os ([], list_head_init h m)) as [t m1]. destruct (queue os) as [t' w].
    cbn [fst snd] in *. destruct IH as [-> R]. destruct o as [n|]; cbn [qstep queue_step fst snd].
    + destruct (F1 n [] eq_refl) as [NH NW]. split; [reflexivity|]. rewrite rev_app_distr. cbn [rev app].
      apply add_ring; [exact R|]. intros [J|J]; [congruence|]. apply in_rev in J. contradiction.
    + pose proof (ring_shows _ _ _ R) as [SE [_ [SL _]]]. unfold pop_last. rewrite SE. destruct w as [|e w]; cbn [rev] in *.
      * split; [reflexivity|exact R].
      * rewrite SL, last_last. destruct (rev w ++ [e]) eqn:Z; [destruct (rev w); discriminate|]. rewrite <- Z in *. clear Z.
        cbn [fst snd]. split; [reflexivity|].
        destruct (del_ring m1 h (rev w ++ [e]) e R) as [R1 _]; [apply in_or_app; right; left; reflexivity|].
        destruct R as [ND _]. inversion ND as [|? ? _ ND1]; subst. rewrite remove_mid in R1 by exact ND1.
        rewrite app_nil_r in R1. exact R1.
Qed.
Print Assumptions commands_in_order.

Example fresh_met : fresh 1 [Put 10; Put 11; Take; Put 10; Take; Take] /\ taken [Put 10; Put 11; Take; Put 10; Take; Take] = [10; 11; 10].
Proof.
  split; [|reflexivity]. intros a n b E.
  destruct a as [|? a]; cbn [app] in E; [injection E as E _; subst n; split; [discriminate|intros []]|injection E as <- E].
  destruct a as [|? a]; cbn [app] in E; [injection E as E _; subst n; split; [discriminate|intros [J|[]]; discriminate]|injection E as <- E].
  destruct a as [|? a]; cbn [app] in E; [discriminate|injection E as <- E].
  destruct a as [|? a]; cbn [app] in E; [injection E as E _; subst n; split; [discriminate|intros [J|[]]; discriminate]|injection E as <- E].
  destruct a as [|? a]; cbn [app] in E; [discriminate|injection E as <- E].
  destruct a as [|? a]; cbn [app] in E; [discriminate|injection E as <- E].
  destruct a; discriminate E.
Qed.

(** Management frames of the UDP and Ethernet IPCPs, and connections that wait to be
    taken by a component, are not: the one that came last goes first, and one that
    waits can wait for ever however many are taken. *)
Theorem frames_order_refuted : forall h a b m, a <> h -> b <> h -> a <> b ->
  fresh h [Put a; Put b; Take] /\
  taken [Put a; Put b; Take] = [a] /\ fst (qrun pop_first h [Put a; Put b; Take] m) = [b].
Proof.
  intros h a b m AH BH AB. split; [|split; [reflexivity|]].
  - intros x n y E. destruct x as [|? x]; [injection E as <- _; split; [exact AH|intros []]|].
    injection E as <- E. destruct x as [|? x]; [injection E as <- _; split; [exact BH|intros [J|[]]; congruence]|].
    injection E as <- E. destruct x as [|? x]; [discriminate|]. injection E as <- E. destruct x; discriminate.
  - unfold qrun. cbn [fold_left qstep fst snd]. unfold push.
    pose proof (add_ring _ h [] a (init_ring h m)) as R. specialize (R ltac:(intros [J|[]]; congruence)).
    pose proof (add_ring _ h [a] b R) as R2. specialize (R2 ltac:(intros [J|[J|[]]]; congruence)).
    pose proof (ring_shows _ _ _ R2) as [SE [SF _]]. unfold pop_first. rewrite SE, SF. reflexivity.
Qed.
Print Assumptions frames_order_refuted.

Theorem frames_starve_refuted : forall h a b m k, a <> h -> b <> h -> a <> b ->
  fst (qrun pop_first h (Put a :: concat (repeat [Put b; Take] k)) m) = repeat b k /\
  shows (snd (qrun pop_first h (Put a :: concat (repeat [Put b; Take] k)) m)) h [a].
Proof.
  intros h a b m k AH BH AB.
  assert (G : forall t m1, ring m1 h [a] ->
    exists m2, fold_left (qstep pop_first h) (concat (repeat [Put b; Take] k)) (t, m1) = (t ++ repeat b k, m2) /\ ring m2 h [a]).
  { induction k as [|k IH]; intros t m1 R; cbn [repeat concat app fold_left].
    - exists m1. rewrite app_nil_r. split; [reflexivity|exact R].
    - pose proof (add_ring m1 h [a] b R) as R2. specialize (R2 ltac:(intros [J|[J|[]]]; congruence)).
      pose proof (ring_shows _ _ _ R2) as [SE [SF _]]. cbn [hd] in SF.
      unfold qstep at 3. cbn [fst snd]. unfold push. unfold qstep at 2. cbn [fst snd]. unfold pop_first at 2. rewrite SE, SF.
      destruct (del_ring _ h [b; a] b R2 (or_introl eq_refl)) as [R3 _].
      assert (Z : remove b [b; a] = [a]).
      { unfold remove. cbn. rewrite Nat.eqb_refl. cbn. destruct (Nat.eqb_spec a b); [contradiction|reflexivity]. }
      rewrite Z in R3. destruct (IH (t ++ [b]) _ R3) as [m2 [E R4]]. exists m2. split; [|exact R4].
      rewrite <- app_assoc in E. exact E. }
  unfold qrun. cbn [fold_left]. unfold qstep at 2 4. cbn [fst snd]. unfold push.
  pose proof (add_ring _ h [] a (init_ring h m)) as R. specialize (R ltac:(intros [J|[]]; congruence)).
  destruct (G [] _ R) as [m2 [E R2]]. rewrite E. split; [reflexivity|apply ring_shows; exact R2].
Qed.
Print Assumptions frames_starve_refuted.

(** What is so of them: the newest of those that wait is taken. *)
Theorem frames_partial : forall h m os, fresh_stack h os ->
  fst (qrun pop_first h os m) = fst (stack os) /\ shows (snd (qrun pop_first h os m)) h (snd (stack os)).
Proof.
  intros h m os F.
  assert (G : fst (qrun pop_first h os m) = fst (stack os) /\ ring (snd (qrun pop_first h os m)) h (snd (stack os))).
  2:{ destruct G as [A B]. split; [exact A|apply ring_shows; exact B]. }
  revert F. induction os as [|o os IH] using rev_ind; intro F.
  - split; [reflexivity|apply init_ring].
  - assert (F0 : fresh_stack h os) by (intros a n b E; apply (F a n (b ++ [o])); rewrite E, <- app_assoc; reflexivity).
    specialize (IH F0). pose proof (F os) as F1.
    unfold qrun, stack in *. rewrite !fold_left_app. cbn [fold_left].
    destruct (fold_left (qstep pop_first h) os ([], list_head_init h m)) as [t m1].
    destruct (fold_left stack_step os ([], [])) as [t' w].
    cbn [fst snd] in *. destruct IH as [-> R]. destruct o as [n|]; cbn [qstep stack_step fst snd].
    + destruct (F1 n [] eq_refl) as [NH NW]. split; [reflexivity|].
      apply add_ring; [exact R|]. intros [J|J]; [congruence|contradiction].
    + pose proof (ring_shows _ _ _ R) as [SE [SF _]]. unfold pop_first. rewrite SE. destruct w as [|e w].
      * split; [reflexivity|exact R].
      * rewrite SF. cbn [hd fst snd]. split; [reflexivity|].
        destruct (del_ring m1 h (e :: w) e R (or_introl eq_refl)) as [R1 _].
        destruct R as [ND _]. inversion ND as [|? ? _ ND1]; subst.
        pose proof (remove_mid e [] w ND1) as Z. cbn [app] in Z. rewrite Z in R1. exact R1.
Qed.
Print Assumptions frames_partial.

(** Nothing is lost: what was put in is what was taken and what waits, in some order. *)
From Coq Require Import Permutation.
Theorem frames_not_lost_partial : forall h m os, fresh_stack h os -> exists w,
  Permutation (puts os) (fst (qrun pop_first h os m) ++ w) /\ shows (snd (qrun pop_first h os m)) h w.
Proof.
  intros h m os F. destruct (frames_partial h m os F) as [A B]. exists (snd (stack os)). split; [|exact B].
  rewrite A. clear. induction os as [|o os IH] using rev_ind; [apply Permutation_refl|].
  rewrite puts_app. unfold stack in *. rewrite fold_left_app. cbn [fold_left].
  destruct (fold_left stack_step os ([], [])) as [t w]. cbn [fst snd] in IH. destruct o as [n|]; cbn [stack_step fst snd puts].
  - eapply Permutation_trans; [apply Permutation_app_tail; exact IH|].
    rewrite <- app_assoc. apply Permutation_app_head. apply Permutation_sym. apply Permutation_cons_append.
  - rewrite app_nil_r. destruct w as [|e w]; cbn [fst snd]; [exact IH|]. rewrite <- app_assoc. exact IH.
Qed.
Print Assumptions frames_not_lost_partial.
