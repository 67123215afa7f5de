(* Property C82: a packet that is written is queued or released, and the
   result of the write says which. *)
From Coq Require Import List NArith ZArith Bool Permutation Lia.
From Verif Require Import DevTxModel DevTxSpec.
Import ListNotations.
Open Scope N_scope.

Lemma land1 x : N.land x 1 =? 0 = negb (N.testbit x 0).
Proof. destruct x as [| [p | p |]]; reflexivity. Qed.
Lemma land2 x : N.land x 2 =? 0 = negb (N.testbit x 1).
Proof. destruct x as [| [[p | p |] | [p | p |] |]]; reflexivity. Qed.

Lemma has_down s : has s ACL_FLOWDOWN = N.testbit (acl s) 1.
Proof. unfold has, ACL_FLOWDOWN. rewrite land2, negb_involutive. reflexivity. Qed.
Lemma has_rdonly s : has s ACL_RDONLY = N.testbit (acl s) 0.
Proof. unfold has, ACL_RDONLY. rewrite land1, negb_involutive. reflexivity. Qed.

Lemma nodup_app_r {X} (l m : list X) : NoDup (l ++ m) -> NoDup m.
Proof. induction l as [| a l IH]; cbn; [auto |]. intros H. inversion H; auto. Qed.

Lemma nodup_app_l {X} (l m : list X) : NoDup (l ++ m) -> NoDup l.
Proof.
  induction l as [| a l IH]; cbn; [constructor |]. intros H. inversion H; subst. constructor; [| auto].
  intros Ha. apply H2, in_or_app. auto.
Qed.

Lemma del_notin i l : ~ In i l -> del i l = l.
Proof.
  unfold del. induction l as [| a l IH]; cbn; intros H; [reflexivity |].
  destruct (Nat.eqb_spec i a) as [E | E]; [exfalso; apply H; auto |]. cbn. rewrite IH; auto.
Qed.

Lemma del_perm i l : NoDup l -> In i l -> Permutation l (i :: del i l).
Proof.
  unfold del. induction l as [| a l IH]; intros Hn Hi; [destruct Hi |].
  inversion Hn; subst. cbn. destruct (Nat.eqb_spec i a) as [E | E]; cbn.
  - subst a. change (filter (fun j => negb (Nat.eqb i j)) l) with (del i l).
    rewrite del_notin by assumption. reflexivity.
  - destruct Hi as [Hi | Hi]; [congruence |].
    rewrite perm_swap. constructor. apply IH; assumption.
Qed.

Lemma delb_fst i l : map fst (delb i l) = del i (map fst l).
Proof.
  unfold delb, del. induction l as [| [a b] l IH]; cbn; [reflexivity |].
  destruct (Nat.eqb i a); cbn; rewrite IH; reflexivity.
Qed.

Lemma del_app i l m : del i (l ++ m) = del i l ++ del i m.
Proof. unfold del. apply filter_app. Qed.

Lemma del_nodup i l : NoDup l -> NoDup (del i l).
Proof. apply NoDup_filter. Qed.

Lemma del_congr i l m : Permutation l m -> Permutation (del i l) (del i m).
Proof.
  unfold del. induction 1; cbn; auto.
  - destruct (negb (Nat.eqb i x)); auto.
  - destruct (negb (Nat.eqb i x)); destruct (negb (Nat.eqb i y)); auto. constructor.
  - etransitivity; eauto.
Qed.

Lemma del_head i l : ~ In i l -> del i (i :: l) = l.
Proof. intros H. unfold del. cbn. rewrite Nat.eqb_refl. cbn. apply del_notin. exact H. Qed.

(* Places as one list. *)
Definition places (s : st) : list nat := q s ++ hand s ++ map fst (blk s).

Lemma acc_nodup s : accounted s -> NoDup (places s).
Proof. intros [H1 H2]. eapply Permutation_NoDup; eauto. Qed.

(* A free after the packet has left all places. *)
Lemma acc_free i s s1 :
  accounted s -> live s1 = live s -> Permutation (places s) (i :: places s1) -> accounted (free i s1).
Proof.
  intros [H1 H2] E P. unfold free, accounted. cbn. rewrite E. split; [apply del_nodup; exact H1 |].
  fold (places s) in H2.
  assert (N1 : NoDup (i :: places s1)) by (eapply Permutation_NoDup; [exact P | eapply Permutation_NoDup; eauto]).
  inversion N1; subst.
  transitivity (del i (i :: places s1)).
  - apply del_congr. etransitivity; eauto.
  - rewrite del_head by assumption. reflexivity.
Qed.

Lemma acc_move s s1 :
  accounted s -> live s1 = live s -> Permutation (places s) (places s1) -> accounted s1.
Proof.
  intros [H1 H2] E P. split; [rewrite E; exact H1 |].
  rewrite E. etransitivity; [exact H2 | exact P].
Qed.

Section Props.
Variable cap : nat.

Definition fullb := full cap.

Lemma put_places i s : fullb s = false -> Permutation (i :: places s) (places (put cap i s)).
Proof.
  intros H. unfold put. unfold fullb in H. rewrite H. unfold places. cbn.
  rewrite <- app_assoc. cbn. apply Permutation_middle.
Qed.

Lemma ring_failed_acc np1 i e s s1 :
  accounted s -> live s1 = live s -> Permutation (places s) (i :: places s1) ->
  accounted (fst (ring_failed np1 i e s1)).
Proof. intros. cbn. eapply acc_free; eauto. Qed.

(* Writing a packet that has just left its place. *)
Lemma ring_write_acc np1 block i s s1 :
  accounted s -> live s1 = live s -> Permutation (places s) (i :: places s1) ->
  ~ (acl s1 <> ACL_RDWR /\ N.testbit (acl s1) 0 = false /\ N.testbit (acl s1) 1 = false) ->
  accounted (fst (ring_write cap np1 block i s1)).
Proof.
  intros HA E P Hp. unfold ring_write, ring_check.
  destruct (acl s1 =? ACL_RDWR) eqn:Ea.
  - destruct (full cap s1) eqn:Ef.
    + destruct block; [| eapply ring_failed_acc; eauto].
      cbn [fst]. eapply acc_move; eauto.
      etransitivity; [exact P |]. unfold places; cbn.
      transitivity (q s1 ++ i :: hand s1 ++ map fst (blk s1)); [apply Permutation_middle |].
      apply Permutation_app_head. apply Permutation_middle.
    + cbn [fst]. eapply acc_move; eauto. etransitivity; [exact P | apply put_places; exact Ef].
  - rewrite has_down, has_rdonly.
    destruct (N.testbit (acl s1) 1) eqn:E1; [eapply ring_failed_acc; eauto |].
    destruct (N.testbit (acl s1) 0) eqn:E0; [eapply ring_failed_acc; eauto |].
    exfalso. apply Hp. apply N.eqb_neq in Ea. auto.
Qed.

Lemma acc_step s e : accounted s -> env_ok s e -> careful cap s e -> accounted (fst (step cap s e)).
Proof.
  intros HA He (C1 & C2 & C3). pose proof (acc_nodup s HA) as HN.
  destruct e as [block bad i | | i | i w | i | i | | | a]; cbn in He.
  - set (s1 := St (i :: live s) (q s) (hand s) (blk s) (acl s)).
    destruct HA as [H1 H2].
    assert (Hni : ~ In i (places s)).
    { intros H. apply He. eapply Permutation_in; [symmetry; exact H2 | exact H]. }
    (* the packet as if in a hand *)
    set (s0 := St (i :: live s) (q s) (i :: hand s) (blk s) (acl s)).
    assert (A0 : accounted s0).
    { split; cbn; [constructor; assumption |]. etransitivity; [apply perm_skip; exact H2 |].
      apply Permutation_middle. }
    assert (P0 : Permutation (places s0) (i :: places s1)).
    { unfold places; cbn. symmetry. apply Permutation_middle. }
    cbn [step]. fold s1. destruct bad.
    + cbn [fst]. eapply acc_free; eauto.
    + apply (ring_write_acc false block i s0 s1 A0 eq_refl P0).
      intros (X1 & X2 & X3). apply C1. unfold peer_dead. cbn. auto.
  - exact HA.
  - cbn [step].
    set (s1 := St (live s) (q s) (del i (hand s)) (blk s) (acl s)).
    assert (P1 : Permutation (places s) (i :: places s1)).
    { unfold places; cbn. transitivity (q s ++ (i :: del i (hand s)) ++ map fst (blk s)).
      - apply Permutation_app_head, Permutation_app_tail. apply del_perm; [| exact He].
        unfold places in HN. eapply nodup_app_l, nodup_app_r; eauto.
      - symmetry. apply Permutation_middle. }
    apply (ring_write_acc true true i s s1 HA eq_refl P1).
    intros (X1 & X2 & X3). apply C1. unfold peer_dead. cbn. auto.
  - cbn [step].
    destruct (find (fun p => Nat.eqb i (fst p)) (blk s)) as [[j np1] |] eqn:Ef; [| exact HA].
    apply find_some in Ef as [Hin Hj]. apply Nat.eqb_eq in Hj. cbn in Hj. subst j.
    set (s1 := St (live s) (q s) (hand s) (delb i (blk s)) (acl s)).
    assert (P1 : Permutation (places s) (i :: places s1)).
    { unfold places; cbn. rewrite delb_fst.
      transitivity (q s ++ hand s ++ i :: del i (map fst (blk s))).
      - do 2 apply Permutation_app_head. apply del_perm.
        + unfold places in HN. do 2 apply nodup_app_r in HN. exact HN.
        + change i with (fst (i, np1)). apply in_map. exact Hin.
      - transitivity (q s ++ i :: hand s ++ del i (map fst (blk s))).
        + apply Permutation_app_head. symmetry. apply Permutation_middle.
        + symmetry. apply Permutation_middle. }
    unfold ring_wake. fold s1.
    assert (Hw : w <> TimedOut -> fullb s = true -> has s ACL_FLOWDOWN = true -> False).
    { intros W1 W2 W3. apply C2. exists i, w. unfold fullb, full in W2. apply Nat.leb_le in W2.
      rewrite has_down in W3. auto. }
    assert (Hput : w <> TimedOut -> full cap s && negb (has s ACL_FLOWDOWN) = false -> accounted (put cap i s1)).
    { intros W1 W2. assert (F : fullb s1 = false).
      { change (fullb s1) with (fullb s). unfold fullb in *.
        destruct (full cap s); [| reflexivity]. destruct (has s ACL_FLOWDOWN); [| discriminate W2].
        exfalso. auto. }
      eapply acc_move; [exact HA | reflexivity |]. etransitivity; [exact P1 | apply put_places; exact F]. }
    destruct w.
    + destruct (_ && _) eqn:E; [exact HA |]. cbn [fst]. apply Hput; [discriminate | reflexivity].
    + eapply ring_failed_acc; eauto.
    + exfalso. apply C3. exists i. reflexivity.
  - destruct HA as [H1 H2]. split; cbn; [constructor; assumption |].
    etransitivity; [apply perm_skip; exact H2 |]. apply Permutation_middle.
  - cbn [step fst].
    set (s1 := St (live s) (q s) (del i (hand s)) (blk s) (acl s)).
    apply (acc_free i s s1 HA eq_refl).
    unfold places; cbn. transitivity (q s ++ (i :: del i (hand s)) ++ map fst (blk s)).
    + apply Permutation_app_head, Permutation_app_tail. apply del_perm; [| exact He].
      unfold places in HN. eapply nodup_app_l, nodup_app_r; eauto.
    + symmetry. apply Permutation_middle.
  - cbn [step]. destruct (q s) as [| i r] eqn:Eq; [exact HA |]. cbn [fst].
    apply (acc_free i s (St (live s) r (hand s) (blk s) (acl s)) HA eq_refl).
    unfold places; cbn. rewrite Eq. reflexivity.
  - cbn [step]. destruct (q s) as [| i r] eqn:Eq; [exact HA |]. cbn [fst].
    eapply acc_move; [exact HA | reflexivity |].
    unfold places; cbn. rewrite Eq. cbn. apply Permutation_middle.
  - exact HA.
Qed.

(* No packet is lost and no packet is released while it is queued, in any
   history that avoids the three situations of DevTxSpec. *)
Theorem packets_accounted_partial : forall s, reach cap (careful cap) s -> accounted s.
Proof.
  intros s H. induction H as [| s e H IH He Hc].
  - split; [constructor | reflexivity].
  - apply acc_step; assumption.
Qed.

(* The ring holds no more than its size, and what is in it keeps its order. *)
Theorem ring_bounded : forall ok s, reach cap ok s -> (length (q s) <= cap)%nat.
Proof.
  intros ok s H. induction H as [| s e H IH He Hc]; [cbn; lia |].
  assert (P : forall i s', q s' = q s -> (length (q (put cap i s')) <= cap)%nat).
  { intros i s' E. unfold put, full. cbn [q]. rewrite E.
    destruct (Nat.leb_spec cap (length (q s))) as [L | L]; cbn; [lia |]. rewrite app_length. cbn. lia. }
  assert (R : forall np1 block i s', q s' = q s -> (length (q (fst (ring_write cap np1 block i s'))) <= cap)%nat).
  { intros np1 block i s' E. unfold ring_write. destruct (ring_check s') as [[e' |] |]; cbn; rewrite ?E; auto.
    destruct (full cap s'); [destruct block; cbn; rewrite ?E; auto |]. apply P; exact E. }
  destruct e as [block bad i | | i | i w | i | i | | | a]; cbn [step]; try exact IH.
  - destruct bad; [auto |]. apply R. reflexivity.
  - apply R. reflexivity.
  - destruct (find _ _) as [[j np1] |]; [| auto]. unfold ring_wake. destruct w; cbn [ring_failed].
    + destruct (_ && _); [auto | apply P; reflexivity].
    + cbn. exact IH.
    + destruct (_ && _); [auto | apply P; reflexivity].
  - destruct (q s) as [| j r] eqn:Eq; cbn [fst free q length] in *; rewrite ?Eq; cbn; lia.
  - destruct (q s) as [| j r] eqn:Eq; cbn [fst q length] in *; rewrite ?Eq; cbn; lia.
Qed.

(* What the result of np1_flow_write says: 0 - the packet is at the end of the
   ring; an error - the ring is as it was and the packet is released.  The
   same for a writer that had to wait. *)
Theorem np1_write_result_partial : forall s e i, reach cap (careful cap) s -> env_ok s e -> careful cap s e ->
  (e = Np1Write i \/ exists w, e = Wake i w /\ In (i, true) (blk s)) ->
  let (s', r) := step cap s e in
  match r with
  | Wrote => q s' = q s ++ [i] /\ In i (live s')
  | Blocked => q s' = q s /\ In i (live s') /\ length (q s') = cap
  | _ => q s' = q s /\ ~ In i (live s')
  end.
Proof.
  intros s e i Hr He Hc Hcase.
  pose proof (packets_accounted_partial s Hr) as HA.
  pose proof (ring_bounded _ s Hr) as HB.
  pose proof (acc_nodup s HA) as HN.
  assert (D : forall l, ~ In i (del i l)).
  { intros l H. unfold del in H. apply filter_In in H as [_ H]. rewrite Nat.eqb_refl in H. discriminate. }
  destruct Hc as (C1 & C2 & C3).
  assert (L : In i (places s) -> In i (live s)).
  { intros H. destruct HA as [_ H2]. eapply Permutation_in; [symmetry; exact H2 | exact H]. }
  destruct Hcase as [-> | (w & -> & Hin)].
  - cbn [step]. cbn in He.
    assert (Li : In i (live s)) by (apply L; unfold places; apply in_or_app; right; apply in_or_app; auto).
    set (s1 := St (live s) (q s) (del i (hand s)) (blk s) (acl s)).
    unfold ring_write, ring_check. change (acl s1) with (acl s).
    rewrite has_down, has_rdonly. change (acl s1) with (acl s).
    destruct (acl s =? ACL_RDWR) eqn:Ea.
    + destruct (full cap s1) eqn:Ef.
      * cbn. unfold full in Ef. apply Nat.leb_le in Ef. cbn in Ef. repeat split; auto. lia.
      * unfold put. rewrite Ef. cbn. auto.
    + destruct (N.testbit (acl s) 1) eqn:E1; [exact (conj eq_refl (D _)) |].
      destruct (N.testbit (acl s) 0) eqn:E0; [exact (conj eq_refl (D _)) |].
      exfalso. apply C1. unfold peer_dead. cbn. apply N.eqb_neq in Ea. auto.
  - cbn [step].
    assert (F : find (fun p => Nat.eqb i (fst p)) (blk s) = Some (i, true)).
    { assert (NB : NoDup (map fst (blk s))).
      { unfold places in HN. do 2 apply nodup_app_r in HN. exact HN. }
      revert Hin NB. generalize (blk s). induction l as [| [a b] l IH]; cbn; intros Hi NB; [destruct Hi |].
      inversion NB; subst. destruct Hi as [Hi | Hi].
      - inversion Hi; subst. rewrite Nat.eqb_refl. reflexivity.
      - destruct (Nat.eqb_spec i a) as [E | E]; [| apply IH; assumption].
        exfalso. subst a. apply H1. change i with (fst (i, true)). apply in_map. exact Hi. }
    rewrite F.
    assert (Li : In i (live s)).
    { apply L. unfold places. do 2 (apply in_or_app; right). change i with (fst (i, true)). apply in_map. exact Hin. }
    unfold ring_wake. rewrite has_down.
    destruct w.
    + destruct (full cap s) eqn:Ef.
      * destruct (N.testbit (acl s) 1) eqn:E1; cbn [andb negb].
        { exfalso. apply C2. exists i, Woken. unfold full in Ef. apply Nat.leb_le in Ef. repeat split; auto. discriminate. }
        { unfold full in Ef. apply Nat.leb_le in Ef. repeat split; auto. lia. }
      * cbn [andb]. unfold put. change (full cap (St _ _ _ _ _)) with (full cap s). rewrite Ef. cbn. auto.
    + exact (conj eq_refl (D _)).
    + exfalso. apply C3. exists i. reflexivity.
Qed.

(* What the result of flow_write says: an error - the ring is as it was and the
   packet is released; the count - the packet is in the ring, or it was
   dropped because the flow is down or read-only at the other end, or the ring
   was full, or the wait ran out.  Missing: the count means that the packet is
   queued (flow_write_result_refuted). *)
Theorem flow_write_result_partial : forall s block bad i, reach cap (careful cap) s ->
  env_ok s (Write block bad i) -> careful cap s (Write block bad i) ->
  let (s', r) := step cap s (Write block bad i) in
  match r with
  | Wrote => (q s' = q s ++ [i] /\ In i (live s')) \/
             (q s' = q s /\ ~ In i (live s') /\
              (acl s <> ACL_RDWR \/ (block = false /\ length (q s) = cap)))
  | Blocked => block = true /\ q s' = q s /\ In i (live s') /\ length (q s') = cap
  | _ => q s' = q s /\ ~ In i (live s') /\ bad = true
  end.
Proof.
  intros s block bad i Hr He Hc. pose proof (ring_bounded _ s Hr) as HB. destruct Hc as (C1 & _ & _).
  assert (D : forall l, ~ In i (del i l)).
  { intros l H. unfold del in H. apply filter_In in H as [_ H]. rewrite Nat.eqb_refl in H. discriminate. }
  cbn [step]. set (s1 := St (i :: live s) (q s) (hand s) (blk s) (acl s)).
  destruct bad; [cbn -[del]; auto |].
  unfold ring_write, ring_check. change (acl s1) with (acl s).
  rewrite has_down, has_rdonly. change (acl s1) with (acl s).
  destruct (acl s =? ACL_RDWR) eqn:Ea.
  - destruct (full cap s1) eqn:Ef.
    + unfold full in Ef. apply Nat.leb_le in Ef. cbn in Ef.
      destruct block; cbn -[del]; [repeat split; auto; lia |]. right. repeat split; auto. right. split; auto. lia.
    + unfold put. rewrite Ef. cbn. auto.
  - apply N.eqb_neq in Ea. destruct (N.testbit (acl s) 1) eqn:E1; [cbn -[del]; right; auto |].
    destruct (N.testbit (acl s) 0) eqn:E0; [cbn -[del]; right; auto |].
    exfalso. apply C1. unfold peer_dead. cbn. auto.
Qed.

(* A read takes the oldest packet; a failing read says why. *)
Theorem read_result : forall s e, e = Read \/ e = Np1Read ->
  let (s', r) := step cap s e in
  match q s with
  | i :: rest => r = Took i /\ q s' = rest
  | [] => s' = s /\ r = Fail (if N.testbit (acl s) 1 then EFLOWDOWN
                              else if N.testbit (acl s) 2 then EFLOWPEER else EAGAIN)
  end.
Proof.
  intros s e H.
  assert (E : read_err s = if N.testbit (acl s) 1 then EFLOWDOWN else if N.testbit (acl s) 2 then EFLOWPEER else EAGAIN).
  { unfold read_err. rewrite has_down. destruct (N.testbit (acl s) 1); [reflexivity |].
    unfold has, ACL_FLOWPEER. replace (N.land (acl s) 4 =? 0) with (negb (N.testbit (acl s) 2)).
    - rewrite negb_involutive. reflexivity.
    - destruct (acl s) as [| [[[p | p |] | [p | p |] |] | [[p | p |] | [p | p |] |] |]]; reflexivity. }
  destruct H as [-> | ->]; cbn [step]; destruct (q s); rewrite ?E; auto.
Qed.
End Props.
Print Assumptions packets_accounted_partial.
Print Assumptions ring_bounded.
Print Assumptions np1_write_result_partial.
Print Assumptions flow_write_result_partial.
Print Assumptions read_result.

(* --- the three situations --- *)

Fixpoint replay (cap : nat) (s : st) (l : list event) : st :=
  match l with [] => s | e :: l' => replay cap (fst (step cap s e)) l' end.

Fixpoint all_ok (cap : nat) (ok : st -> event -> Prop) (s : st) (l : list event) : Prop :=
  match l with
  | [] => True
  | e :: l' => env_ok s e /\ ok s e /\ all_ok cap ok (fst (step cap s e)) l'
  end.

Lemma replay_reach cap ok l : forall s, reach cap ok s -> all_ok cap ok s l -> reach cap ok (replay cap s l).
Proof.
  induction l as [| e l IH]; intros s H Hl; [exact H |].
  destruct Hl as (H1 & H2 & H3). apply IH; [| exact H3]. apply r_step; assumption.
Qed.

(* After the reader's end was declared dead, every packet written by the layer
   below is lost to the pool: reported as written, in no ring, never freed. *)
Theorem peer_dead_leaks_refuted :
  ~ (forall cap s, (0 < cap)%nat ->
       reach cap (fun s e => ~ woken_by_down cap s e /\ ~ woken_by_death s e) s -> accounted s).
Proof.
  intros H. specialize (H 1%nat (replay 1 init [SetAcl ACL_FLOWPEER; Obtain 7; Np1Write 7])).
  destruct H as [_ H].
  - lia.
  - apply replay_reach; [constructor |]. cbn. repeat split; auto;
      unfold woken_by_down, woken_by_death; try (intros (? & ? & E & _); discriminate); intros (? & E); discriminate.
  - apply Permutation_length in H. vm_compute in H. discriminate.
Qed.
Print Assumptions peer_dead_leaks_refuted.

(* A writer that waits when the flow goes down writes into the full ring; the
   ring then counts as empty and everything in it is lost. *)
Theorem down_while_blocked_refuted :
  ~ (forall cap s, (0 < cap)%nat ->
       reach cap (fun s e => ~ peer_dead s e /\ ~ woken_by_death s e) s -> accounted s).
Proof.
  intros H. specialize (H 1%nat (replay 1 init
    [Write true false 3; Write true false 4; SetAcl ACL_FLOWDOWN; Wake 4 Woken])).
  destruct H as [_ H].
  - lia.
  - apply replay_reach; [constructor |]. cbn. unfold peer_dead, woken_by_death, ACL_RDWR, ACL_FLOWDOWN; cbn.
    repeat split; try (intros (? & E); discriminate); intuition discriminate.
  - apply Permutation_length in H. vm_compute in H. discriminate.
Qed.
Print Assumptions down_while_blocked_refuted.

(* A writer that finds room and a dead process at once queues the packet,
   reports an error, and releases it: the ring holds a packet that the pool
   will hand out again. *)
Theorem death_while_blocked_refuted :
  ~ (forall cap s, (0 < cap)%nat ->
       reach cap (fun s e => ~ peer_dead s e /\ ~ woken_by_down cap s e) s ->
       forall i, In i (q s) -> In i (live s)).
Proof.
  intros H. specialize (H 1%nat (replay 1 init
    [Write true false 3; Write true false 4; Read; Wake 4 OwnerDead])).
  assert (E : In 4%nat (live (replay 1 init [Write true false 3; Write true false 4; Read; Wake 4 OwnerDead]))).
  { apply H.
    - lia.
    - apply replay_reach; [constructor |]. cbn. unfold peer_dead, ACL_RDWR; cbn.
      repeat split; try (intuition discriminate);
        intros (j & w & E1 & E2 & E3 & E4); vm_compute in E4; discriminate.
    - vm_compute. auto. }
  vm_compute in E. exact E.
Qed.
Print Assumptions death_while_blocked_refuted.

(* flow_write returns the count although the flow is down and the packet was
   dropped. *)
Theorem flow_write_result_refuted :
  ~ (forall cap s block i, (0 < cap)%nat -> reach cap (careful cap) s ->
       env_ok s (Write block false i) -> careful cap s (Write block false i) ->
       snd (step cap s (Write block false i)) = Wrote ->
       In i (q (fst (step cap s (Write block false i))))).
Proof.
  intros H. specialize (H 1%nat (replay 1 init [SetAcl ACL_FLOWDOWN]) true 5%nat).
  assert (E : In 5%nat (q (fst (step 1 (replay 1 init [SetAcl ACL_FLOWDOWN]) (Write true false 5))))).
  { apply H.
    - lia.
    - apply replay_reach; [constructor |]. cbn. unfold careful, peer_dead, woken_by_down, woken_by_death.
      repeat split; auto; try (intros (? & E); discriminate).
      intros (? & ? & E & _); discriminate.
    - cbn. auto.
    - unfold careful, peer_dead, woken_by_down, woken_by_death; cbn. repeat split.
      + intros (_ & _ & _ & E). discriminate.
      + intros (? & ? & E & _); discriminate.
      + intros (? & E); discriminate.
    - reflexivity. }
  vm_compute in E. exact E.
Qed.
Print Assumptions flow_write_result_refuted.

(* Non-vacuity: a careful history with a blocked writer that gets through, one
   that times out, and a packet passed on. *)
Example careful_history :
  let l := [Obtain 1%nat; Np1Write 1%nat; Write true false 2%nat; Obtain 9%nat; Np1Write 9%nat; Np1Read;
            Wake 2%nat Woken; Wake 9%nat TimedOut; Release 1%nat] in
  reach 1 (careful 1) (replay 1 init l) /\
  live (replay 1 init l) = [2%nat] /\ q (replay 1 init l) = [2%nat].
Proof.
  cbn zeta. split; [| split; reflexivity].
  apply replay_reach; [constructor |]. cbn.
  unfold careful, peer_dead, woken_by_down, woken_by_death, ACL_RDWR; cbn.
  repeat split; try (intros (? & E); discriminate); try (intros (? & ? & E & _); discriminate);
    try (intuition discriminate); try (intros (_ & E & _); congruence).
  all: intros (j & w & E1 & E2 & E3 & E4); vm_compute in E4; discriminate.
Qed.
