(* C48: events of flow sets. *)
From Coq Require Import ZArith List Bool Lia ZifyBool ZifyNat.
From Verif Require Import FsetModel FsetSpec.
Import ListNotations.
Open Scope Z_scope.

Record rel (s : fset) (a : sets) : Prop := {
  r_member : forall id, mtable s id = match member a id with Some i => i | None => -1 end;
  r_valid : forall id i, member a id = Some i -> 0 <= i < PROG_MAX_FQUEUES;
  r_heads : forall i, heads s i = Z.of_nat (length (pending a i));
  r_mem : forall i k e, 0 <= i < PROG_MAX_FQUEUES -> nth_error (pending a i) k = Some e ->
            fqueues s (SHM_BUFFER_SIZE * i + Z.of_nat k) = e
}.

Lemma copy_list : forall mem l from,
  (forall k e, nth_error l k = Some e -> mem (from + Z.of_nat k) = e) -> copy mem from (length l) = l.
Proof.
  intros mem. induction l as [|x l IH]; intros from H; [reflexivity|]. cbn [length copy]. f_equal.
  - rewrite <- (H O x eq_refl). f_equal. lia.
  - apply IH. intros k e Hk. rewrite <- (H (S k) e Hk). f_equal. lia.
Qed.

Lemma rel_init : rel fset_create no_sets.
Proof. constructor; cbn; auto; [discriminate|]. intros i [|k] e _ H; discriminate. Qed.

Lemma member_eqb : forall s a idx id, rel s a -> 0 <= idx ->
  (mtable s id =? idx) = in_set a idx id.
Proof.
  intros s a idx id R H. unfold in_set. rewrite (r_member s a R id).
  destruct (member a id) as [i|]; [reflexivity | lia].
Qed.

Lemma call_ok : forall s a c, rel s a -> good_call c ->
  (forall i, Z.of_nat (length (pending (fst (spec_call a c)) i)) <= SHM_BUFFER_SIZE) ->
  (forall i, Z.of_nat (length (pending a i)) <= SHM_BUFFER_SIZE) ->
  exists s', fset_call s c = Ok (s', snd (spec_call a c)) /\ rel s' (fst (spec_call a c)).
Proof.
  intros s a c R G L' L. pose proof R as [R1 R2 R3 R4].
  destruct c as [idx|idx id|idx id|idx id|id ev|idx]; cbn [good_call] in G; cbn [fset_call].
  - unfold fset_zero, valid_idx. replace ((0 <=? idx) && (idx <? PROG_MAX_FQUEUES)) with true by lia.
    eexists. split; [reflexivity|]. cbn [spec_call fst]. constructor; cbn [mtable heads fqueues member pending].
    + intros id. rewrite (member_eqb s a) by (auto; lia). unfold in_set. specialize (R1 id).
      destruct (member a id) as [i|]; [destruct (i =? idx)|]; auto.
    + intros id i. unfold in_set. destruct (member a id) as [j|] eqn:M; [|discriminate].
      destruct (j =? idx); [discriminate|]. intros X. apply (R2 id). congruence.
    + intros i. unfold upd. destruct (i =? idx); [reflexivity | auto].
    + intros i k e Hi. destruct (i =? idx); [destruct k; discriminate | auto].
  - unfold fset_add, valid_id, valid_idx. destruct G as [G1 G2].
    replace ((0 <=? id) && (id <? SYS_MAX_FLOWS) && ((0 <=? idx) && (idx <? PROG_MAX_FQUEUES))) with true by lia.
    pose proof (R1 id) as M. cbn [spec_call]. destruct (member a id) as [i|] eqn:Em.
    + specialize (R2 id i Em). replace (mtable s id =? -1) with false by lia. cbn [negb fst snd]. eauto.
    + replace (mtable s id =? -1) with true by lia. cbn [negb fst snd]. eexists. split; [reflexivity|].
      constructor; cbn [mtable heads fqueues member pending]; auto.
      * intros j. unfold upd. destruct (j =? id); auto.
      * intros j i. destruct (j =? id); [intros X; injection X as <-; exact G1 | apply R2].
  - unfold fset_del, valid_id, valid_idx. destruct G as [G1 G2].
    replace ((0 <=? id) && (id <? SYS_MAX_FLOWS) && ((0 <=? idx) && (idx <? PROG_MAX_FQUEUES))) with true by lia.
    rewrite (member_eqb s a) by (auto; lia). cbn [spec_call fst snd].
    destruct (in_set a idx id) eqn:I; (eexists; split; [reflexivity|]); constructor;
      cbn [mtable heads fqueues member pending]; auto.
    + intros j. unfold upd. rewrite andb_true_r. destruct (j =? id); auto.
    + intros j i. rewrite andb_true_r. destruct (j =? id); [discriminate | apply R2].
    + intros j. rewrite andb_false_r. auto.
    + intros j i. rewrite andb_false_r. apply R2.
  - unfold fset_has, valid_id, valid_idx. destruct G as [G1 G2].
    replace ((0 <=? id) && (id <? SYS_MAX_FLOWS) && ((0 <=? idx) && (idx <? PROG_MAX_FQUEUES))) with true by lia.
    rewrite (member_eqb s a) by (auto; lia). cbn [spec_call fst snd]. eauto.
  - unfold fset_notify, valid_id. replace ((0 <=? id) && (id <? SYS_MAX_FLOWS)) with true by lia.
    pose proof (R1 id) as M. cbn [spec_call] in *. destruct (member a id) as [idx|] eqn:Em.
    + specialize (R2 id idx Em) as V. replace (mtable s id =? -1) with false by lia.
      cbn [fst pending] in L'. specialize (L' idx) as Lq. rewrite Z.eqb_refl, app_length in Lq. cbn [length] in Lq.
      rewrite M. unfold fqueue_ptr, fqueues_end in *. rewrite (R3 idx).
      assert (Y : SHM_BUFFER_SIZE * idx + Z.of_nat (length (pending a idx)) < PROG_MAX_FQUEUES * SHM_BUFFER_SIZE).
      { unfold SHM_BUFFER_SIZE, PROG_MAX_FQUEUES in *. lia. }
      replace (PROG_MAX_FQUEUES * SHM_BUFFER_SIZE <=? SHM_BUFFER_SIZE * idx + Z.of_nat (length (pending a idx)))
        with false by lia.
      eexists. split; [reflexivity|]. cbn [fst]. constructor; cbn [mtable heads fqueues member pending]; auto.
      * intros i. unfold upd. destruct (Z.eqb_spec i idx) as [E|E]; [|auto].
        subst i. rewrite app_length. cbn [length]. lia.
      * intros i k e Hi. unfold upd. destruct (Z.eqb_spec i idx) as [E|E].
        -- subst i. intros X. destruct (Nat.lt_ge_cases k (length (pending a idx))) as [Hk|Hk].
           ++ rewrite nth_error_app1 in X by auto.
              replace (SHM_BUFFER_SIZE * idx + Z.of_nat k =?
                       SHM_BUFFER_SIZE * idx + Z.of_nat (length (pending a idx))) with false by lia. auto.
           ++ assert (k = length (pending a idx)) as ->.
              { assert (k < length (pending a idx ++ [(id, ev)]))%nat by (apply nth_error_Some; congruence).
                rewrite app_length in H. cbn [length] in H. lia. }
              rewrite nth_error_app2, Nat.sub_diag in X by lia. cbn in X. injection X as <-.
              rewrite Z.eqb_refl. reflexivity.
        -- intros X.
           assert (Hk : (k < length (pending a i))%nat) by (apply nth_error_Some; congruence).
           specialize (L i). unfold SHM_BUFFER_SIZE in *.
           replace (16384 * i + Z.of_nat k =? 16384 * idx + Z.of_nat (length (pending a idx))) with false; [auto|].
           symmetry. apply Z.eqb_neq. lia.
    + replace (mtable s id =? -1) with true by lia. cbn [fst snd]. eauto.
  - unfold fset_wait, valid_idx. replace ((0 <=? idx) && (idx <? PROG_MAX_FQUEUES)) with true by lia.
    rewrite (R3 idx). specialize (L idx) as Lq. cbn [spec_call] in *.
    destruct (pending a idx) as [|e0 q] eqn:Ep.
    + cbn [length]. change (Z.of_nat 0 =? 0) with true. cbn [fst snd]. eauto.
    + replace (Z.of_nat (length (e0 :: q)) =? 0) with false by (cbn [length]; lia).
      replace (SHM_BUFFER_SIZE <? Z.of_nat (length (e0 :: q))) with false by lia.
      rewrite Nat2Z.id. unfold fqueue_ptr. rewrite copy_list.
      2:{ intros k e Hk. apply (R4 idx k e G). now rewrite Ep. }
      eexists. split; [reflexivity|]. cbn [fst]. constructor; cbn [mtable heads fqueues member pending]; auto.
      * intros i. unfold upd. destruct (i =? idx); [reflexivity | auto].
      * intros i k e Hi. destruct (i =? idx); [destruct k; discriminate | auto].
Qed.

(* C48, the part that holds: over every history of calls by any processes,
   if no set ever has more than SHM_BUFFER_SIZE events waiting, every call
   returns what the sets of the specification return: a flow is in one set
   at most; the events that are collected are those of the flows that were
   in the set when they happened, in order, each once. *)
Theorem fset_events_partial : forall l,
  Forall good_call l -> at_most SHM_BUFFER_SIZE no_sets l ->
  exists s, fset_run fset_create l = Ok (s, snd (spec_run no_sets l)).
Proof.
  assert (G : forall l s a, rel s a -> Forall good_call l -> at_most SHM_BUFFER_SIZE a l ->
            exists s', fset_run s l = Ok (s', snd (spec_run a l))).
  { induction l as [|c l IH]; intros s a R F A; cbn [fset_run spec_run]; [eauto|].
    inversion F as [|? ? F1 F2]; subst. destruct A as [A1 A2].
    assert (A3 : forall i, Z.of_nat (length (pending (fst (spec_call a c)) i)) <= SHM_BUFFER_SIZE)
      by (destruct l; apply A2).
    destruct (call_ok s a c R F1 A3 A1) as (s1 & E1 & R1). rewrite E1.
    destruct (spec_call a c) as [a1 r1]. cbn [fst snd] in *.
    destruct (IH s1 a1 R1 F2 A2) as (s2 & E2). rewrite E2. destruct (spec_run a1 l) as [a2 r2]. cbn [snd]. eauto. }
  intros l F A. apply (G l fset_create no_sets rel_init F A).
Qed.
Print Assumptions fset_events_partial.

Lemma at_most_few : forall l a n,
  (forall i, Z.of_nat (length (pending a i) + length l) <= n) -> at_most n a l.
Proof.
  induction l as [|c l IH]; intros a n H; cbn [at_most]; split;
    try (intros i; specialize (H i); lia); [exact I|].
  apply IH. intros i. specialize (H i). cbn [length] in H.
  enough (length (pending (fst (spec_call a c)) i) <= length (pending a i) + 1)%nat by lia.
  destruct c as [idx|idx id|idx id|idx id|id ev|idx]; cbn [spec_call].
  - cbn [fst pending]. destruct (i =? idx); cbn [length]; lia.
  - destruct (member a id); cbn [fst pending]; lia.
  - cbn [fst pending]. lia.
  - cbn [fst pending]. lia.
  - destruct (member a id) as [x|]; cbn [fst pending]; [|lia].
    destruct (i =? x); [rewrite app_length; cbn [length]|]; lia.
  - destruct (pending a idx) eqn:E; cbn [fst pending]; [lia|]. destruct (i =? idx); cbn [length]; lia.
Qed.

Example fset_events_example :
  let l := [Add 3 7; Add 4 7; Add 4 8; Notify 7 1; Notify 8 2; Notify 9 1; Notify 7 5; Del 3 7; Notify 7 1;
            Has 3 7; Wait 3; Wait 3; Wait 4] in
  Forall good_call l /\ at_most SHM_BUFFER_SIZE no_sets l /\
  snd (spec_run no_sets l) =
    [Added true; Added false; Added true; Done; Done; Done; Done; Done; Done; HasIt false;
     Events (Some [(7, 1); (7, 5)]); Events None; Events (Some [(8, 2)])].
Proof.
  cbv zeta. split; [|split; [|reflexivity]].
  - unfold PROG_MAX_FQUEUES, SYS_MAX_FLOWS. repeat constructor; lia.
  - apply at_most_few. intros i. unfold SHM_BUFFER_SIZE. cbn. lia.
Qed.

(* Any number of notifications of one flow. *)
Lemma notify_many : forall n s id ev idx,
  0 <= id < SYS_MAX_FLOWS -> mtable s id = idx -> 0 <= idx ->
  fqueue_ptr idx + heads s idx + Z.of_nat n <= fqueues_end ->
  exists s', fset_run s (repeat (Notify id ev) n) = Ok (s', repeat Done n) /\
    (forall i, mtable s' i = mtable s i) /\
    (forall i, heads s' i = if i =? idx then heads s i + Z.of_nat n else heads s i) /\
    (forall k, fqueues s' k = if (fqueue_ptr idx + heads s idx <=? k) &&
                                 (k <? fqueue_ptr idx + heads s idx + Z.of_nat n)
                              then (id, ev) else fqueues s k).
Proof.
  induction n as [|n IH]; intros s id ev idx Hid M Hi L.
  - exists s. split; [reflexivity|]. split; [reflexivity|]. split.
    + intros i. destruct (i =? idx); lia.
    + intros k. replace ((fqueue_ptr idx + heads s idx <=? k) && _) with false by lia. reflexivity.
  - cbn [repeat fset_run fset_call]. unfold fset_notify, valid_id.
    replace ((0 <=? id) && (id <? SYS_MAX_FLOWS)) with true by lia.
    rewrite M. replace (idx =? -1) with false by lia.
    replace (fqueues_end <=? fqueue_ptr idx + heads s idx) with false by lia.
    destruct (IH (Fset (mtable s) (upd (heads s) idx (heads s idx + 1))
                    (upd (fqueues s) (fqueue_ptr idx + heads s idx) (id, ev))) id ev idx)
      as (s' & E & E1 & E2 & E3); auto; cbn [mtable heads fqueues] in *.
    + unfold upd. rewrite Z.eqb_refl. lia.
    + exists s'. rewrite E. split; [reflexivity|]. split; [exact E1|]. split.
      * intros i. rewrite E2. unfold upd. destruct (Z.eqb_spec i idx) as [X|X]; [subst i; lia | reflexivity].
      * intros k. rewrite E3. unfold upd. rewrite Z.eqb_refl.
        destruct (Z.eqb_spec k (fqueue_ptr idx + heads s idx)) as [X|X].
        -- replace ((fqueue_ptr idx + heads s idx <=? k) && (k <? fqueue_ptr idx + heads s idx + Z.of_nat (S n)))
             with true by lia.
           destruct (_ && _); reflexivity.
        -- replace ((fqueue_ptr idx + heads s idx <=? k) && (k <? fqueue_ptr idx + heads s idx + Z.of_nat (S n)))
             with ((fqueue_ptr idx + (heads s idx + 1) <=? k) &&
                   (k <? fqueue_ptr idx + (heads s idx + 1) + Z.of_nat n)) by lia.
           reflexivity.
Qed.

Lemma run_app : forall l1 l2 s s1 r1, fset_run s l1 = Ok (s1, r1) ->
  fset_run s (l1 ++ l2) = match fset_run s1 l2 with UB => UB | Ok (s2, r2) => Ok (s2, r1 ++ r2) end.
Proof.
  induction l1 as [|c l1 IH]; intros l2 s s1 r1 E; cbn [fset_run app] in *.
  - injection E as <- <-. destruct (fset_run s l2) as [[s2 r2]|]; reflexivity.
  - destruct (fset_call s c) as [[s0 a]|]; [|discriminate].
    destruct (fset_run s0 l1) as [[s3 r3]|] eqn:E3; [|discriminate]. injection E as <- <-.
    rewrite (IH l2 s0 s3 r3 E3). destruct (fset_run s3 l2) as [[s2 r2]|]; reflexivity.
Qed.

Lemma spec_many : forall n a id ev idx, member a id = Some idx ->
  exists a', spec_run a (repeat (Notify id ev) n) = (a', repeat Done n) /\
    (forall i, i <> idx -> pending a' i = pending a i).
Proof.
  induction n as [|n IH]; intros a id ev idx M; cbn [repeat spec_run]; [eauto|].
  cbn [spec_call]. rewrite M.
  destruct (IH (Sets (member a) (fun i => if i =? idx then pending a i ++ [(id, ev)] else pending a i)) id ev idx M)
    as (a' & E & P). exists a'. rewrite E. split; [reflexivity|]. intros i Hi. rewrite (P i Hi). cbn [pending].
  replace (i =? idx) with false by lia. reflexivity.
Qed.

Lemma spec_app : forall l1 l2 a a1 r1, spec_run a l1 = (a1, r1) ->
  snd (spec_run a (l1 ++ l2)) = r1 ++ snd (spec_run a1 l2).
Proof.
  induction l1 as [|c l1 IH]; intros l2 a a1 r1 E; cbn [spec_run app] in *.
  - injection E as <- <-. reflexivity.
  - destruct (spec_call a c) as [a0 r0]. destruct (spec_run a0 l1) as [a2 r2] eqn:E2. injection E as <- <-.
    specialize (IH l2 a0 a2 r2 E2). destruct (spec_run a0 (l1 ++ l2)). cbn [snd] in *. now rewrite IH.
Qed.

(* C48 in full is false.  Nothing stops the notifications when the queue is
   full: the next event goes where the first event of the next set was. *)
Definition too_many : nat := Z.to_nat (SHM_BUFFER_SIZE + 1).

Definition overrun : list call := [Add 3 7; Add 4 8; Notify 8 2] ++ repeat (Notify 7 1) too_many ++ [Wait 4].

Lemma too_many_is : Z.of_nat too_many = 16385.
Proof. unfold too_many, SHM_BUFFER_SIZE. lia. Qed.

Theorem fset_events_refuted :
  ~ (forall l, Forall good_call l -> exists s, fset_run fset_create l = Ok (s, snd (spec_run no_sets l))).
Proof.
  intros H. destruct (H overrun) as [s E].
  - unfold overrun. apply Forall_app. split.
    + unfold PROG_MAX_FQUEUES, SYS_MAX_FLOWS. repeat constructor; lia.
    + apply Forall_app. split; [|unfold PROG_MAX_FQUEUES; repeat constructor; lia].
      apply Forall_forall. intros c Hc. apply repeat_spec in Hc. subst c. unfold good_call, SYS_MAX_FLOWS. lia.
  - pose proof too_many_is as TM. unfold overrun in E. generalize dependent too_many. intros n E Hn.
    assert (P : exists s0, fset_run fset_create [Add 3 7; Add 4 8; Notify 8 2] =
                  Ok (s0, [Added true; Added true; Done]) /\ mtable s0 7 = 3 /\ heads s0 3 = 0 /\ heads s0 4 = 1).
    { eexists. split; [reflexivity|]. do 2 (split; [reflexivity|]). reflexivity. }
    destruct P as (s0 & P & M0 & H3 & H4).
    rewrite (run_app _ _ _ _ _ P) in E.
    destruct (notify_many n s0 7 1 3) as (s1 & N1 & Nm & Nh & Nq);
      [unfold SYS_MAX_FLOWS; lia | exact M0 | lia |
       rewrite H3; unfold fqueue_ptr, fqueues_end, PROG_MAX_FQUEUES, SHM_BUFFER_SIZE; lia|].
    rewrite (run_app _ _ _ _ _ N1) in E.
    assert (W : fset_run s1 [Wait 4] = Ok (Fset (mtable s1) (upd (heads s1) 4 0) (fqueues s1),
                                           [Events (Some [(7, 1)])])).
    { cbn [fset_run fset_call]. unfold fset_wait.
      change (valid_idx 4) with true. cbv iota. rewrite Nh. change (4 =? 3) with false. cbv iota. rewrite H4.
      change (1 =? 0) with false. change (SHM_BUFFER_SIZE <? 1) with false. cbv iota.
      change (Z.to_nat 1) with 1%nat. cbn [copy]. rewrite Nq, H3. unfold fqueue_ptr, SHM_BUFFER_SIZE.
      replace ((16384 * 3 + 0 <=? 16384 * 4) && (16384 * 4 <? 16384 * 3 + 0 + Z.of_nat n)) with true by lia.
      reflexivity. }
    rewrite W in E.
    assert (Inj : forall (x y : fset) (u v : list answer), Ok (x, u) = Ok (y, v) -> u = v)
      by (intros x y u v X; congruence).
    apply Inj in E.
    set (a0 := Sets (fun i => if i =? 8 then Some 4 else if i =? 7 then Some 3 else None)
                    (fun i => if i =? 4 then [] ++ [(8, 2)] else [])).
    rewrite (spec_app [Add 3 7; Add 4 8; Notify 8 2] _ no_sets a0 [Added true; Added true; Done] eq_refl) in E.
    destruct (spec_many n a0 7 1 3 eq_refl) as (a1 & S1 & S2).
    rewrite (spec_app _ _ a0 a1 _ S1) in E.
    assert (S3 : pending a1 4 = [(8, 2)]) by (rewrite S2 by lia; reflexivity).
    cbn [spec_run spec_call] in E. rewrite S3 in E. cbn [snd] in E.
    apply (app_inv_head [Added true; Added true; Done]) in E. apply app_inv_head in E. discriminate E.
Qed.
Print Assumptions fset_events_refuted.

(* For the last set the lock itself is overwritten, and a process that
   collects more than SHM_BUFFER_SIZE events overwrites its own memory. *)
Theorem fset_overrun_ub :
  fset_run fset_create (Add 31 7 :: repeat (Notify 7 1) too_many) = UB /\
  fset_run fset_create (Add 3 7 :: repeat (Notify 7 1) too_many ++ [Wait 3]) = UB.
Proof.
  pose proof too_many_is as TM. split.
  - assert (E : exists n, too_many = (n + 1)%nat /\ Z.of_nat n = 16384) by (exists (too_many - 1)%nat; lia).
    destruct E as (n & -> & Hn). clear TM. rewrite repeat_app.
    assert (P : exists s0, fset_call fset_create (Add 31 7) = Ok (s0, Added true) /\ mtable s0 7 = 31 /\ heads s0 31 = 0)
      by (eexists; split; [reflexivity|]; split; reflexivity).
    destruct P as (s0 & P & M0 & H0). cbn [fset_run]. rewrite P.
    destruct (notify_many n s0 7 1 31) as (s1 & N1 & Nm & Nh & Nq);
      [unfold SYS_MAX_FLOWS; lia | exact M0 | lia |
       rewrite H0; unfold fqueue_ptr, fqueues_end, PROG_MAX_FQUEUES, SHM_BUFFER_SIZE; lia|].
    rewrite (run_app _ _ _ _ _ N1). cbn [repeat fset_run fset_call]. unfold fset_notify.
    change (valid_id 7) with true. cbv iota. rewrite Nm, M0. change (31 =? -1) with false. cbv iota.
    rewrite Nh. change (31 =? 31) with true. cbv iota. rewrite H0.
    replace (fqueues_end <=? fqueue_ptr 31 + (0 + Z.of_nat n)) with true; [reflexivity|].
    unfold fqueue_ptr, fqueues_end, PROG_MAX_FQUEUES, SHM_BUFFER_SIZE. lia.
  - generalize dependent too_many. intros n TM.
    assert (P : exists s0, fset_call fset_create (Add 3 7) = Ok (s0, Added true) /\ mtable s0 7 = 3 /\ heads s0 3 = 0)
      by (eexists; split; [reflexivity|]; split; reflexivity).
    destruct P as (s0 & P & M0 & H0). cbn [fset_run]. rewrite P.
    destruct (notify_many n s0 7 1 3) as (s1 & N1 & Nm & Nh & Nq);
      [unfold SYS_MAX_FLOWS; lia | exact M0 | lia |
       rewrite H0; unfold fqueue_ptr, fqueues_end, PROG_MAX_FQUEUES, SHM_BUFFER_SIZE; lia|].
    rewrite (run_app _ _ _ _ _ N1). cbn [fset_run fset_call]. unfold fset_wait.
    change (valid_idx 3) with true. cbv iota. rewrite Nh. change (3 =? 3) with true. cbv iota. rewrite H0.
    replace (0 + Z.of_nat n =? 0) with false by lia.
    replace (SHM_BUFFER_SIZE <? 0 + Z.of_nat n) with true by (unfold SHM_BUFFER_SIZE; lia). reflexivity.
Qed.
Print Assumptions fset_overrun_ub.

(* An event that was not collected when its flow was removed is still
   reported. *)
Theorem fset_removed_refuted :
  ~ (forall l idx id s ans evs ev, fset_run fset_create (l ++ [Del idx id; Wait idx]) = Ok (s, ans) ->
       nth_error ans (length l + 1) = Some (Events (Some evs)) -> ~ In (id, ev) evs).
Proof.
  intros H.
  assert (E : exists s, fset_run fset_create ([Add 3 7; Notify 7 1] ++ [Del 3 7; Wait 3]) =
              Ok (s, [Added true; Done; Done; Events (Some [(7, 1)])])).
  { eexists. cbn. reflexivity. }
  destruct E as [s E]. apply (H [Add 3 7; Notify 7 1] 3 7 s _ [(7, 1)] 1 E eq_refl). now left.
Qed.
Print Assumptions fset_removed_refuted.
