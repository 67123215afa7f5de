From Coq Require Import List NArith ZArith Bool Lia.
From Coq Require Import ZifyBool ZifyNat ZifyN.
From Verif Require Import RbuffModel RbuffSpec.
Import ListNotations.
Open Scope N_scope.

Section P.
Variable lg : N.
Notation SZ := (rb_size lg).

Lemma size_pos : 0 < SZ.
Proof. unfold rb_size. apply N.neq_0_lt_0, N.pow_nonzero. lia. Qed.

Lemma mask x : N.land x (SZ - 1) = x mod SZ.
Proof.
  unfold rb_size. rewrite <- N.land_ones. f_equal. rewrite N.ones_equiv. lia.
Qed.

Definition in_range (r : rbuff) : Prop := head r < SZ /\ tail r < SZ.

Lemma used_eq r : in_range r ->
  rb_used lg r = if tail r <=? head r then head r - tail r else head r + SZ - tail r.
Proof.
  intros [Hh Ht]. unfold rb_used. rewrite mask.
  destruct (tail r <=? head r) eqn:E.
  - replace (head r + SZ - tail r) with (head r - tail r + 1 * SZ) by lia.
    rewrite N.mod_add by lia. apply N.mod_small. lia.
  - apply N.mod_small. lia.
Qed.

Lemma used_lt r : in_range r -> rb_used lg r < SZ.
Proof.
  intros [Hh Ht]. unfold rb_used. rewrite mask. apply N.mod_lt. pose proof size_pos; lia.
Qed.

Lemma empty_used r : in_range r -> rb_empty r = true <-> rb_used lg r = 0.
Proof.
  intros H. rewrite used_eq by auto. unfold rb_empty. destruct H.
  destruct (tail r <=? head r) eqn:E; lia.
Qed.

Lemma add_mod a b : a < SZ -> b < SZ -> (a + b) mod SZ = if a + b <? SZ then a + b else a + b - SZ.
Proof.
  intros. destruct (a + b <? SZ) eqn:E.
  - apply N.mod_small. lia.
  - replace (a + b) with (a + b - SZ + 1 * SZ) by lia.
    rewrite N.mod_add by lia. rewrite N.mod_small; lia.
Qed.

Lemma head_pos r : in_range r -> (tail r + rb_used lg r) mod SZ = head r.
Proof.
  intros H. rewrite add_mod; [|destruct H; auto|apply used_lt; auto].
  rewrite used_eq by auto. destruct H.
  destruct (tail r <=? head r) eqn:E;
  match goal with |- context [if ?b then _ else _] => destruct b eqn:E2 end; lia.
Qed.

Lemma contents_length r : length (contents lg r) = N.to_nat (rb_used lg r).
Proof. unfold contents. rewrite map_length, seq_length. auto. Qed.

Lemma slot_pos_neq r i : in_range r -> i < rb_used lg r -> (tail r + i) mod SZ <> head r.
Proof.
  intros H Hi. pose proof (used_lt r H). rewrite add_mod; [|destruct H; auto|lia].
  rewrite used_eq in * by auto. destruct H.
  destruct (tail r <=? head r) eqn:E;
  match goal with |- context [if ?b then _ else _] => destruct b eqn:E2 end; lia.
Qed.

(** ** effect of the memory updates on the contents *)

Lemma store_contents r idx : in_range r ->
  contents lg (store_head idx r) = contents lg r /\ in_range (store_head idx r).
Proof.
  intros H. split; [|exact H]. unfold contents.
  assert (rb_used lg (store_head idx r) = rb_used lg r) as -> by reflexivity.
  apply map_ext_in. intros i Hi. apply in_seq in Hi. unfold store_head; cbn [slot tail].
  destruct (_ =? _) eqn:E; auto. apply N.eqb_eq in E. exfalso.
  eapply slot_pos_neq in E; auto. lia.
Qed.

Lemma bump_head_used r : in_range r -> rb_free lg r = true ->
  rb_used lg (bump_head lg r) = rb_used lg r + 1 /\ in_range (bump_head lg r).
Proof.
  intros H Hf. unfold rb_free in Hf.
  assert (Hr : in_range (bump_head lg r)).
  { split; unfold bump_head; cbn [head tail]; [|destruct H; auto].
    rewrite mask. apply N.mod_lt. pose proof size_pos; lia. }
  split; auto. rewrite (used_eq _ Hr). unfold bump_head; cbn [head tail].
  rewrite mask. pose proof (used_eq r H) as Hu. rewrite Hu in *.
  destruct H as [Hh Ht].
  assert (1 < SZ) by lia.
  rewrite add_mod by lia.
  destruct (tail r <=? head r) eqn:E1; destruct (head r + 1 <? SZ) eqn:E2;
  match goal with |- context [if ?b then _ else _] => destruct b eqn:E3 end; lia.
Qed.

Lemma write_contents r idx : in_range r -> rb_free lg r = true ->
  contents lg (bump_head lg (store_head idx r)) = contents lg r ++ [idx] /\
  in_range (bump_head lg (store_head idx r)).
Proof.
  intros H Hf. set (r1 := store_head idx r).
  destruct (store_contents r idx H) as [Hc H1]. fold r1 in Hc, H1.
  assert (Hf1 : rb_free lg r1 = true) by exact Hf.
  destruct (bump_head_used r1 H1 Hf1) as [Hu H2].
  split; auto. rewrite <- Hc. unfold contents. rewrite Hu.
  replace (N.to_nat (rb_used lg r1 + 1)) with (N.to_nat (rb_used lg r1) + 1)%nat by lia.
  rewrite seq_app, map_app. simpl (seq _ 1). cbn [map]. f_equal.
  f_equal. unfold bump_head; cbn [slot tail].
  replace (N.of_nat (N.to_nat (rb_used lg r1))) with (rb_used lg r1) by lia.
  rewrite (head_pos r1 H1). unfold r1, store_head; cbn [slot head tail].
  rewrite N.eqb_refl. reflexivity.
Qed.

Lemma read_contents r : in_range r -> rb_empty r = false ->
  contents lg r = slot r (tail r) :: contents lg (bump_tail lg r) /\
  in_range (bump_tail lg r).
Proof.
  intros H He.
  assert (Hr : in_range (bump_tail lg r)).
  { split; unfold bump_tail; cbn [head tail]; [destruct H; auto|].
    rewrite mask. apply N.mod_lt. pose proof size_pos; lia. }
  assert (Hu : rb_used lg r = rb_used lg (bump_tail lg r) + 1).
  { rewrite (used_eq _ Hr), (used_eq _ H). unfold bump_tail; cbn [head tail]. rewrite mask.
    unfold rb_empty in He. destruct H.
    assert (1 < SZ) by (destruct (N.lt_ge_cases 1 SZ); auto; pose proof size_pos; lia).
    rewrite add_mod by lia.
    destruct (tail r <=? head r) eqn:E1; destruct (tail r + 1 <? SZ) eqn:E2;
    match goal with |- context [if ?b then _ else _] => destruct b eqn:E3 end; lia. }
  split; auto. unfold contents. rewrite Hu.
  replace (N.to_nat (rb_used lg (bump_tail lg r) + 1))
    with (S (N.to_nat (rb_used lg (bump_tail lg r)))) by lia.
  rewrite <- cons_seq. cbn [map]. f_equal.
  - rewrite N.add_0_r. rewrite N.mod_small; auto. destruct H; auto.
  - rewrite <- seq_shift, map_map. apply map_ext_in. intros i Hi.
    unfold bump_tail; cbn [slot tail]. f_equal. rewrite mask.
    pose proof size_pos. rewrite N.add_mod_idemp_l by lia. f_equal. lia.
Qed.

Lemma contents_empty r : in_range r -> rb_empty r = true <-> contents lg r = [].
Proof.
  intros H. rewrite (empty_used r H). split; intros E.
  - apply length_zero_iff_nil. rewrite contents_length. lia.
  - apply (f_equal (@length N)) in E. rewrite contents_length in E. simpl in E. lia.
Qed.

Lemma contents_full r : in_range r -> rb_free lg r = false <-> length (contents lg r) = capacity lg.
Proof.
  intros H. rewrite contents_length. unfold rb_free, capacity.
  pose proof (used_lt r H). lia.
Qed.

Lemma contents_le r : in_range r -> (length (contents lg r) <= capacity lg)%nat.
Proof. intros H. rewrite contents_length. unfold capacity. pose proof (used_lt r H). lia. Qed.

(** ** the ring part of each step *)

Lemma we_full s idx :
  rb (apply_effects (write_effects lg s idx) s) = bump_head lg (store_head idx (rb s)).
Proof. unfold write_effects. destruct (rb_empty (rb s)); reflexivity. Qed.

Lemma re_full s : rb (apply_effects (read_effects lg) s) = bump_tail lg (rb s).
Proof. reflexivity. Qed.

Lemma init_range : in_range (rb sys_init).
Proof. split; apply size_pos. Qed.

Definition wr (s : sys) (evs : list event) : Prop :=
  in_range (rb s) /\ written evs = delivered evs ++ contents lg (rb s).

Lemma written_app a b : written (a ++ b) = written a ++ written b.
Proof. unfold written. apply flat_map_app. Qed.
Lemma delivered_app a b : delivered (a ++ b) = delivered a ++ delivered b.
Proof. unfold delivered. apply flat_map_app. Qed.

Lemma wr_same s evs s' es :
  wr s evs -> rb s' = rb s -> written es = [] -> delivered es = [] -> wr s' (evs ++ es).
Proof.
  intros [H1 H2] E W D. unfold wr. rewrite written_app, delivered_app, W, D, E, !app_nil_r. auto.
Qed.

Lemma wr_write s evs s' t a idx : a = ACL_RDWR ->
  wr s evs -> rb s' = bump_head lg (store_head idx (rb s)) -> rb_free lg (rb s) = true ->
  wr s' (evs ++ [EvWrite t a idx OK]).
Proof.
  intros -> [H1 H2] E Hf. destruct (write_contents (rb s) idx H1 Hf) as [Hc Hr].
  unfold wr. rewrite E. split; auto. rewrite written_app, delivered_app, Hc, H2. simpl.
  rewrite <- !app_assoc. reflexivity.
Qed.

Lemma wr_read s evs s' t :
  wr s evs -> rb s' = bump_tail lg (rb s) -> rb_empty (rb s) = false ->
  wr s' (evs ++ [EvRead t (inr (slot (rb s) (tail (rb s))))]).
Proof.
  intros [H1 H2] E He. destruct (read_contents (rb s) H1 He) as [Hc Hr].
  unfold wr. rewrite E. split; auto. rewrite written_app, delivered_app, H2, Hc. simpl.
  rewrite <- !app_assoc, app_nil_r. reflexivity.
Qed.

(** Blocked and woken writers called when the flow was open for writing. *)
Definition calls_ok (s : sys) : Prop :=
  forall t, match thr s t with
            | SleepW a _ | AwakeW a _ _ => a = ACL_RDWR
            | _ => True
            end.

Lemma calls_set s t x : calls_ok s ->
  match x with SleepW a _ | AwakeW a _ _ => a = ACL_RDWR | _ => True end ->
  calls_ok (set_thr s t x).
Proof.
  intros H Hx u. unfold set_thr; cbn [thr]. destruct (Nat.eqb u t); auto. apply H.
Qed.

Lemma calls_add s : calls_ok s -> calls_ok (bcast_add s).
Proof. intros H u. specialize (H u). unfold bcast_add; cbn [thr]. destruct (thr s u); auto. Qed.
Lemma calls_del s : calls_ok s -> calls_ok (bcast_del s).
Proof. intros H u. specialize (H u). unfold bcast_del; cbn [thr]. destruct (thr s u); auto. Qed.
Lemma calls_rb s f : calls_ok s -> calls_ok (on_rb f s).
Proof. intros H u. apply (H u). Qed.

Lemma calls_we s idx : calls_ok s -> calls_ok (apply_effects (write_effects lg s idx) s).
Proof.
  intros H. unfold write_effects. destruct (rb_empty (rb s)); unfold apply_effects; cbn [app fold_left].
  - apply calls_rb, calls_rb, calls_add, H.
  - apply calls_rb, calls_rb, H.
Qed.
Lemma calls_re s : calls_ok s -> calls_ok (apply_effects (read_effects lg) s).
Proof. intros H. apply calls_del, calls_rb, H. Qed.

Lemma acl_check_none r : write_acl_check r = None -> acl r = ACL_RDWR.
Proof.
  unfold write_acl_check. destruct (acl r =? ACL_RDWR) eqn:E; [intros _; apply N.eqb_eq, E|].
  destruct (acl_has r ACL_FLOWDOWN); [discriminate|].
  destruct (acl_has r ACL_RDONLY); discriminate.
Qed.

Lemma written_nonok t a idx r : r <> OK \/ a <> ACL_RDWR -> written [EvWrite t a idx r] = [].
Proof.
  intros [H|H]; simpl; destruct r; try congruence; auto.
  destruct (a =? ACL_RDWR) eqn:E; auto. apply N.eqb_eq in E. congruence.
Qed.

Lemma wb_loop_inv s evs t a idx ret s' es :
  wr s evs -> calls_ok s -> a = ACL_RDWR ->
  ret = OK \/ ret = ETIMEDOUT ->
  (ret = OK -> acl_has (rb s) ACL_FLOWDOWN = true -> rb_free lg (rb s) = false -> False) ->
  write_b_loop lg s t a idx ret = (s', es) ->
  wr s' (evs ++ es) /\ calls_ok s'.
Proof.
  intros Hw Hc Ha Hret Hb E. unfold write_b_loop in E.
  destruct (negb (rb_free lg (rb s)) && negb (rc_eqb ret ETIMEDOUT) &&
            negb (acl_has (rb s) ACL_FLOWDOWN)) eqn:E1.
  - injection E as <- <-. split; [|apply calls_set; auto].
    apply (wr_same s); auto.
  - destruct Hret as [-> | ->]; cbn [rc_eqb negb] in *.
    + injection E as <- <-. split; [|apply calls_set; auto; apply calls_we; auto].
      apply (wr_write s); auto.
      * unfold set_thr; cbn [rb]. apply we_full.
      * destruct (rb_free lg (rb s)) eqn:Ef; auto. exfalso.
        destruct (acl_has (rb s) ACL_FLOWDOWN) eqn:Ed; [|discriminate].
        apply Hb; auto.
    + injection E as <- <-. split; [|apply calls_set; auto].
      apply (wr_same s); auto.
Qed.

Lemma rb_loop_inv s evs t w s' es :
  wr s evs -> calls_ok s -> read_b_loop lg s t w = (s', es) ->
  wr s' (evs ++ es) /\ calls_ok s'.
Proof.
  intros Hw Hc E. unfold read_b_loop in E. cbv zeta in E.
  destruct (rb_empty (rb s)) eqn:Ee; cbn [negb andb] in E.
  - destruct (negb _ && _) in E.
    + injection E as <- <-. split; [|apply calls_set; auto]. apply (wr_same s); auto.
    + destruct (negb _) in E; injection E as <- <-; (split; [|apply calls_set; auto]);
      apply (wr_same s); auto.
  - injection E as <- <-. split; [|apply calls_set; auto; apply calls_re; auto].
    apply wr_read; auto.
Qed.

Lemma step_inv s evs l s' es :
  wr s evs -> calls_ok s -> benign lg s l -> step lg s l = Some (s', es) ->
  wr s' (evs ++ es) /\ calls_ok s'.
Proof.
  intros Hw Hc Hb E.
  destruct l as [t idx|t idx|t|t|f|t|t|t w|t|t idx n|t n]; cbn [step] in E.
  - destruct (thr s t) eqn:Et; try discriminate. injection E as E.
    unfold do_write in E. destruct (write_acl_check (rb s)) as [r|] eqn:Ea.
    + injection E as <- <-. split; auto. apply (wr_same s); auto.
      apply written_nonok. destruct r; try (left; discriminate).
      right. intros E0. unfold write_acl_check in Ea. rewrite E0 in Ea. discriminate.
    + destruct (rb_free lg (rb s)) eqn:Ef; cbn [negb] in E; injection E as <- <-.
      * split; [|apply calls_we; auto]. apply (wr_write s); auto; [apply acl_check_none; auto|].
        apply we_full.
      * split; auto. apply (wr_same s); auto.
  - destruct (thr s t) eqn:Et; try discriminate. injection E as E.
    unfold do_write_b in E. destruct (write_acl_check (rb s)) as [r|] eqn:Ea.
    + injection E as <- <-. split; auto. apply (wr_same s); auto.
      apply written_nonok. destruct r; try (left; discriminate).
      right. intros E0. unfold write_acl_check in Ea. rewrite E0 in Ea. discriminate.
    + apply acl_check_none in Ea.
      eapply wb_loop_inv in E; eauto. intros _ Hd _. unfold acl_has in Hd. rewrite Ea in Hd. discriminate.
  - destruct (thr s t) eqn:Et; try discriminate. injection E as E.
    unfold do_read in E. destruct (rb_empty (rb s)) eqn:Ee; injection E as <- <-.
    + split; auto. apply (wr_same s); auto.
    + split; [|apply calls_re; auto]. apply wr_read; auto.
  - destruct (thr s t) eqn:Et; try discriminate. injection E as E.
    unfold do_read_b in E. destruct (rb_empty (rb s) && _) in E.
    + injection E as <- <-. split; auto. apply (wr_same s); auto.
    + eapply rb_loop_inv; eauto.
  - injection E as <- <-. split.
    + destruct Hw as [Hr Hw]. split; [exact Hr|]. rewrite app_nil_r. exact Hw.
    + apply calls_add, calls_del, calls_rb, Hc.
  - destruct (thr s t) eqn:Et; try discriminate. injection E as <- <-.
    split; auto. apply (wr_same s); auto.
  - destruct (thr s t) eqn:Et; try discriminate. injection E as E. unfold do_fini in E.
    destruct (negb _) in E; injection E as <- <-; (split; [|apply calls_set; auto]);
    apply (wr_same s); auto.
  - pose proof (Hc t) as Hct. destruct (thr s t) eqn:Et; try discriminate.
    + injection E as <- <-. split; [|apply calls_set; auto]. apply (wr_same s); auto.
    + injection E as <- <-. split; [|apply calls_set; auto]. apply (wr_same s); auto.
    + destruct w; try discriminate; injection E as <- <-; (split; [|apply calls_set; auto]);
      apply (wr_same s); auto.
  - pose proof (Hc t) as Hct. unfold benign in Hb.
    destruct (thr s t) eqn:Et; try discriminate; injection E as E.
    + eapply wb_loop_inv in E; eauto.
      * destruct w; auto. contradiction.
      * destruct w; try discriminate. intros _ Hd Hf. apply Hb; auto.
    + eapply rb_loop_inv; eauto.
    + unfold do_fini in E.
      destruct (negb _) in E; injection E as <- <-; (split; [|apply calls_set; auto]);
      apply (wr_same s); auto.
  - destruct Hb.
  - destruct Hb.
Qed.

Lemma exec_inv s evs : exec lg (benign lg) s evs -> wr s evs /\ calls_ok s.
Proof.
  intros H. induction H as [|s evs l s' es H IH Hok E].
  - split; [|intros t; exact I]. split; [apply init_range|].
    simpl. symmetry. apply contents_empty; [apply init_range|]. reflexivity.
  - destruct IH. eapply step_inv; eauto.
Qed.

Theorem c03_fifo s evs : exec lg (benign lg) s evs ->
  written evs = delivered evs ++ contents lg (rb s) /\
  (length (contents lg (rb s)) <= capacity lg)%nat.
Proof.
  intros H. destruct (exec_inv s evs H) as [[Hr Hw] _]. split; auto. apply contents_le; auto.
Qed.

(** ** range is preserved by every step whatsoever *)

Lemma range_store r idx : in_range r -> in_range (store_head idx r).
Proof. intros H; exact H. Qed.
Lemma range_bump_head r : in_range r -> in_range (bump_head lg r).
Proof.
  intros [H1 H2]. split; cbn [head tail bump_head]; auto. rewrite mask.
  apply N.mod_lt. pose proof size_pos; lia.
Qed.
Lemma range_bump_tail r : in_range r -> in_range (bump_tail lg r).
Proof.
  intros [H1 H2]. split; cbn [head tail bump_tail]; auto. rewrite mask.
  apply N.mod_lt. pose proof size_pos; lia.
Qed.

Lemma die_write_rb s idx n :
  rb (apply_effects (firstn n (write_effects lg s idx)) s) = rb s \/
  rb (apply_effects (firstn n (write_effects lg s idx)) s) = store_head idx (rb s) \/
  rb (apply_effects (firstn n (write_effects lg s idx)) s) = bump_head lg (store_head idx (rb s)).
Proof.
  unfold write_effects. destruct (rb_empty (rb s)); cbn [app].
  - destruct n as [|[|[|n]]]; cbn [firstn]; auto.
    destruct n; right; right; reflexivity.
  - destruct n as [|[|n]]; cbn [firstn]; auto.
    destruct n; right; right; reflexivity.
Qed.

Lemma die_read_rb s n :
  rb (apply_effects (firstn n (read_effects lg)) s) = rb s \/
  rb (apply_effects (firstn n (read_effects lg)) s) = bump_tail lg (rb s).
Proof.
  unfold read_effects. destruct n as [|[|n]]; cbn [firstn]; auto.
  destruct n; right; reflexivity.
Qed.

Lemma wb_loop_rb s t a idx ret s' es : write_b_loop lg s t a idx ret = (s', es) ->
  rb s' = rb s \/ rb s' = bump_head lg (store_head idx (rb s)).
Proof.
  unfold write_b_loop. destruct (_ && _); [intros [= <- <-]; auto|].
  destruct (negb _); intros [= <- <-]; auto. right. unfold set_thr; cbn [rb]. apply we_full.
Qed.

Lemma rb_loop_rb s t w s' es : read_b_loop lg s t w = (s', es) ->
  rb s' = rb s \/ rb s' = bump_tail lg (rb s).
Proof.
  unfold read_b_loop; cbv zeta. destruct (_ && _ && _); [intros [= <- <-]; auto|].
  destruct (negb (rb_empty (rb s))); [intros [= <- <-]; auto|].
  destruct (negb _); intros [= <- <-]; auto.
Qed.

Lemma step_range s l s' es : in_range (rb s) -> step lg s l = Some (s', es) -> in_range (rb s').
Proof.
  intros Hr E.
  destruct l as [t idx|t idx|t|t|f|t|t|t w|t|t idx n|t n]; cbn [step] in E.
  - destruct (thr s t); try discriminate. injection E as E. unfold do_write in E.
    destruct (write_acl_check (rb s)); [injection E as <- <-; auto|].
    destruct (negb _); injection E as <- <-; auto. rewrite we_full.
    apply range_bump_head, range_store, Hr.
  - destruct (thr s t); try discriminate. injection E as E. unfold do_write_b in E.
    destruct (write_acl_check (rb s)); [injection E as <- <-; auto|].
    apply wb_loop_rb in E. destruct E as [-> | ->]; auto. apply range_bump_head, range_store, Hr.
  - destruct (thr s t); try discriminate. injection E as E. unfold do_read in E.
    destruct (rb_empty (rb s)); injection E as <- <-; auto. apply range_bump_tail, Hr.
  - destruct (thr s t); try discriminate. injection E as E. unfold do_read_b in E.
    destruct (_ && _); [injection E as <- <-; auto|].
    apply rb_loop_rb in E. destruct E as [-> | ->]; auto. apply range_bump_tail, Hr.
  - injection E as <- <-. exact Hr.
  - destruct (thr s t); try discriminate. injection E as <- <-. auto.
  - destruct (thr s t); try discriminate. injection E as E. unfold do_fini in E.
    destruct (negb _); injection E as <- <-; auto.
  - destruct (thr s t); try discriminate; try (injection E as <- <-; auto).
    destruct w; try discriminate; injection E as <- <-; auto.
  - destruct (thr s t); try discriminate; injection E as E.
    + apply wb_loop_rb in E. destruct E as [-> | ->]; auto. apply range_bump_head, range_store, Hr.
    + apply rb_loop_rb in E. destruct E as [-> | ->]; auto. apply range_bump_tail, Hr.
    + unfold do_fini in E. destruct (negb _); injection E as <- <-; auto.
  - destruct (thr s t); try discriminate. destruct (write_acl_check (rb s)); try discriminate.
    destruct (rb_free lg (rb s)); try discriminate. injection E as <- <-. unfold set_thr; cbn [rb].
    destruct (die_write_rb s idx n) as [-> |[-> | ->]]; auto using range_bump_head, range_store.
  - destruct (thr s t); try discriminate. destruct (rb_empty (rb s)); try discriminate.
    injection E as <- <-. unfold set_thr; cbn [rb].
    destruct (die_read_rb s n) as [-> | ->]; auto using range_bump_tail.
Qed.

Lemma exec_range ok s evs : exec lg ok s evs -> in_range (rb s).
Proof.
  intros H. induction H; [apply init_range|]. eapply step_range; eauto.
Qed.

(** ** results of calls *)

Lemma c03_eagain_write ok s evs l s' es t a idx :
  exec lg ok s evs -> step lg s l = Some (s', es) -> In (EvWrite t a idx EAGAIN) es ->
  length (contents lg (rb s)) = capacity lg /\ rb s' = rb s.
Proof.
  intros H E Hin. pose proof (exec_range _ _ _ H) as Hr.
  assert (Hwb : forall t0 a0 i0 ret, ret <> EAGAIN ->
    write_b_loop lg s t0 a0 i0 ret = (s', es) -> False).
  { intros t0 a0 i0 ret Hne E0. unfold write_b_loop in E0.
    destruct (_ && _) in E0; [injection E0 as <- <-; destruct Hin|].
    destruct (negb _) in E0; injection E0 as <- <-; destruct Hin as [Hin|[]]; congruence. }
  assert (Hrb : forall t0 w0, read_b_loop lg s t0 w0 = (s', es) -> False).
  { intros t0 w0 E0. unfold read_b_loop in E0; cbv zeta in E0.
    destruct (_ && _ && _) in E0; [injection E0 as <- <-; destruct Hin|].
    destruct (negb (rb_empty _)) in E0; [injection E0 as <- <-; destruct Hin as [Hin|[]]; congruence|].
    destruct (negb _) in E0; injection E0 as <- <-; destruct Hin as [Hin|[]]; congruence. }
  assert (Hac : write_acl_check (rb s) <> Some EAGAIN).
  { unfold write_acl_check. destruct (_ =? _); [discriminate|].
    destruct (acl_has _ _); [discriminate|]. destruct (acl_has _ _); discriminate. }
  destruct l as [t1 i1|t1 i1|t1|t1|f|t1|t1|t1 w|t1|t1 i1 n|t1 n]; cbn [step] in E;
    try (destruct (thr s t1); try discriminate).
  - injection E as E. unfold do_write in E. destruct (write_acl_check (rb s)) as [r|].
    + injection E as <- <-. destruct Hin as [Hin|[]]. congruence.
    + destruct (rb_free lg (rb s)) eqn:Ef; cbn [negb] in E; injection E as <- <-;
      destruct Hin as [Hin|[]]; try congruence. split; auto. apply contents_full; auto.
  - injection E as E. unfold do_write_b in E. destruct (write_acl_check (rb s)) as [r|].
    + injection E as <- <-. destruct Hin as [Hin|[]]. congruence.
    + exfalso. eapply Hwb; [|exact E]. discriminate.
  - injection E as E. unfold do_read in E. destruct (rb_empty _); injection E as <- <-;
    destruct Hin as [Hin|[]]; congruence.
  - injection E as E. unfold do_read_b in E. destruct (_ && _).
    + injection E as <- <-. destruct Hin as [Hin|[]]. congruence.
    + exfalso. eapply Hrb. eauto.
  - injection E as <- <-. destruct Hin.
  - injection E as <- <-. destruct Hin as [Hin|[]]. congruence.
  - injection E as E. unfold do_fini in E. destruct (negb _); injection E as <- <-;
    [destruct Hin|destruct Hin as [Hin|[]]; congruence].
  - injection E as <- <-. destruct Hin.
  - injection E as <- <-. destruct Hin.
  - destruct w; try discriminate; injection E as <- <-; destruct Hin.
  - injection E as E. exfalso. eapply Hwb; [|exact E]. destruct w; discriminate.
  - injection E as E. exfalso. eapply Hrb; eauto.
  - injection E as E. unfold do_fini in E. destruct (negb _); injection E as <- <-;
    [destruct Hin|destruct Hin as [Hin|[]]; congruence].
  - destruct (write_acl_check (rb s)); try discriminate.
    destruct (rb_free lg (rb s)); try discriminate. injection E as <- <-. destruct Hin.
  - destruct (rb_empty (rb s)); try discriminate. injection E as <- <-. destruct Hin.
Qed.

Lemma c03_eagain_read ok s evs l s' es t :
  exec lg ok s evs -> step lg s l = Some (s', es) -> In (EvRead t (inl EAGAIN)) es ->
  contents lg (rb s) = [] /\ l = LRead t /\ rb s' = rb s.
Proof.
  intros H E Hin. pose proof (exec_range _ _ _ H) as Hr.
  assert (Hwb : forall t0 a0 i0 ret,
    write_b_loop lg s t0 a0 i0 ret = (s', es) -> False).
  { intros t0 a0 i0 ret E0. unfold write_b_loop in E0.
    destruct (_ && _) in E0; [injection E0 as <- <-; destruct Hin|].
    destruct (negb _) in E0; injection E0 as <- <-; destruct Hin as [Hin|[]]; congruence. }
  assert (Hrb : forall t0 w0, read_b_loop lg s t0 w0 = (s', es) -> False).
  { intros t0 w0 E0. unfold read_b_loop in E0; cbv zeta in E0.
    destruct (rb_empty (rb s)); cbn [andb negb] in E0.
    - set (to := match w0 with Some WakeTimeout => true | _ => false end) in *.
      destruct to; cbn [negb andb] in E0.
      + injection E0 as <- <-. destruct Hin as [Hin|[]]. congruence.
      + destruct (rc_eqb (check_rb_acl (rb s)) EAGAIN) eqn:Ec; injection E0 as <- <-; [destruct Hin|].
        destruct Hin as [Hin|[]]. injection Hin as -> Hin. rewrite Hin in Ec. discriminate.
    - injection E0 as <- <-. destruct Hin as [Hin|[]]. congruence. }
  destruct l as [t1 i1|t1 i1|t1|t1|f|t1|t1|t1 w|t1|t1 i1 n|t1 n]; cbn [step] in E;
    try (destruct (thr s t1); try discriminate).
  - injection E as E. unfold do_write in E. destruct (write_acl_check (rb s)) as [r|].
    + injection E as <- <-. destruct Hin as [Hin|[]]. congruence.
    + destruct (negb _); injection E as <- <-; destruct Hin as [Hin|[]]; congruence.
  - injection E as E. unfold do_write_b in E. destruct (write_acl_check (rb s)) as [r|].
    + injection E as <- <-. destruct Hin as [Hin|[]]. congruence.
    + exfalso. eapply Hwb; exact E.
  - injection E as E. unfold do_read in E. destruct (rb_empty (rb s)) eqn:Ee; injection E as <- <-;
    destruct Hin as [Hin|[]]; try congruence. injection Hin as -> _.
    repeat split; auto. apply contents_empty; auto.
  - injection E as E. unfold do_read_b in E. destruct (_ && _).
    + injection E as <- <-. destruct Hin as [Hin|[]]. congruence.
    + exfalso. eapply Hrb. eauto.
  - injection E as <- <-. destruct Hin.
  - injection E as <- <-. destruct Hin as [Hin|[]]. congruence.
  - injection E as E. unfold do_fini in E. destruct (negb _); injection E as <- <-;
    [destruct Hin|destruct Hin as [Hin|[]]; congruence].
  - injection E as <- <-. destruct Hin.
  - injection E as <- <-. destruct Hin.
  - destruct w; try discriminate; injection E as <- <-; destruct Hin.
  - injection E as E. exfalso. eapply Hwb; exact E.
  - injection E as E. exfalso. eapply Hrb; eauto.
  - injection E as E. unfold do_fini in E. destruct (negb _); injection E as <- <-;
    [destruct Hin|destruct Hin as [Hin|[]]; congruence].
  - destruct (write_acl_check (rb s)); try discriminate.
    destruct (rb_free lg (rb s)); try discriminate. injection E as <- <-. destruct Hin.
  - destruct (rb_empty (rb s)); try discriminate. injection E as <- <-. destruct Hin.
Qed.

Lemma c03_queued ok s evs t s' es :
  exec lg ok s evs -> step lg s (LQueued t) = Some (s', es) ->
  s' = s /\ es = [EvQueued t (N.of_nat (length (contents lg (rb s))))].
Proof.
  intros H E. cbn [step] in E. destruct (thr s t); try discriminate. injection E as <- <-.
  split; auto. rewrite contents_length. do 2 f_equal. lia.
Qed.

(** ** sleeping threads (C04) *)

Definition sleep_ok (s : sys) : Prop :=
  forall t, match thr s t with
            | SleepR => rb_empty (rb s) = true /\ check_rb_acl (rb s) = EAGAIN
            | SleepW _ _ => rb_free lg (rb s) = false /\ acl_has (rb s) ACL_FLOWDOWN = false
            | _ => True
            end.

Definition fini_ok (s : sys) : Prop :=
  forall t, thr s t = SleepF -> rb_empty (rb s) = false.

(** No thread of the given kind sleeps. *)
Definition no_sleepR (s : sys) := forall t, thr s t <> SleepR.
Definition no_sleepW (s : sys) := forall t a i, thr s t <> SleepW a i.
Definition no_sleepF (s : sys) := forall t, thr s t <> SleepF.

Lemma nsR_add s : no_sleepR (bcast_add s).
Proof. intros t. cbn. destruct (thr s t); discriminate. Qed.
Lemma nsW_del s : no_sleepW (bcast_del s).
Proof. intros t a i. cbn. destruct (thr s t); discriminate. Qed.
Lemma nsF_del s : no_sleepF (bcast_del s).
Proof. intros t. cbn. destruct (thr s t); discriminate. Qed.

Lemma sleep_ok_none s : no_sleepR s -> no_sleepW s -> sleep_ok s.
Proof.
  intros H1 H2 t. specialize (H1 t). destruct (thr s t) as [|a i| | | | | |] eqn:E; auto.
  - destruct (H2 t a i E).
  - congruence.
Qed.

Lemma sleep_set s t x : sleep_ok s ->
  match x with
  | SleepR => rb_empty (rb s) = true /\ check_rb_acl (rb s) = EAGAIN
  | SleepW _ _ => rb_free lg (rb s) = false /\ acl_has (rb s) ACL_FLOWDOWN = false
  | _ => True
  end -> sleep_ok (set_thr s t x).
Proof.
  intros H Hx u. unfold set_thr; cbn [thr rb]. destruct (Nat.eqb u t); auto. apply H.
Qed.

Lemma fini_set s t x : fini_ok s -> (x = SleepF -> rb_empty (rb s) = false) -> fini_ok (set_thr s t x).
Proof.
  intros H Hx u. unfold set_thr; cbn [thr rb]. destruct (Nat.eqb u t); auto. apply H.
Qed.

(** if the ring is free (or down) no writer sleeps; if it is non-empty no reader sleeps *)
Lemma sleep_noW s : sleep_ok s ->
  rb_free lg (rb s) = true \/ acl_has (rb s) ACL_FLOWDOWN = true -> no_sleepW s.
Proof.
  intros H Hc t a i E. specialize (H t). rewrite E in H. destruct H, Hc; congruence.
Qed.
Lemma sleep_noR s : sleep_ok s -> rb_empty (rb s) = false -> no_sleepR s.
Proof. intros H Hc t E. specialize (H t). rewrite E in H. destruct H; congruence. Qed.

Lemma we_thr s idx n t :
  thr (apply_effects (firstn n (write_effects lg s idx)) s) t =
  (if rb_empty (rb s) && (0 <? N.of_nat n) then wake_add (thr s t) else thr s t).
Proof.
  unfold write_effects. destruct (rb_empty (rb s)); cbn [app andb].
  - destruct n as [|[|[|[|n]]]]; reflexivity.
  - destruct n as [|[|[|n]]]; reflexivity.
Qed.

Lemma firstn_we s idx : firstn 3 (write_effects lg s idx) = write_effects lg s idx.
Proof. unfold write_effects. destruct (rb_empty (rb s)); reflexivity. Qed.

(** Prefixes of a write keep the sleep invariant, if no writer sleeps. *)
Lemma sleep_we s idx n : sleep_ok s -> no_sleepW s ->
  sleep_ok (apply_effects (firstn n (write_effects lg s idx)) s).
Proof.
  intros H HW.
  set (s' := apply_effects _ s).
  assert (HW' : no_sleepW s').
  { intros t a i. unfold s'. rewrite we_thr. destruct (_ && _).
    - specialize (HW t a i). destruct (thr s t); cbn; congruence.
    - apply HW. }
  destruct (rb_empty (rb s)) eqn:Ee.
  - destruct (0 <? N.of_nat n) eqn:En.
    + apply sleep_ok_none; auto. intros t. unfold s'. rewrite we_thr, Ee, En. cbn [andb].
      destruct (thr s t); cbn; discriminate.
    + assert (n = 0%nat) as -> by lia. exact H.
  - apply sleep_ok_none; auto. intros t. unfold s'. rewrite we_thr, Ee. cbn [andb].
    apply sleep_noR; auto.
Qed.

Lemma sleep_re s n : n <> 1%nat -> sleep_ok s -> rb_empty (rb s) = false ->
  sleep_ok (apply_effects (firstn n (read_effects lg)) s).
Proof.
  intros Hn H He. destruct n as [|[|n]]; [exact H|congruence|].
  replace (firstn (S (S n)) (read_effects lg)) with (read_effects lg) by (destruct n; reflexivity).
  apply sleep_ok_none; [|apply nsW_del].
  intros t E. cbn in E. pose proof (sleep_noR s H He t).
  destruct (thr s t); cbn in E; congruence.
Qed.

Lemma wb_loop_sleep s t a idx ret s' es : sleep_ok s ->
  write_b_loop lg s t a idx ret = (s', es) -> sleep_ok s'.
Proof.
  intros H E. unfold write_b_loop in E.
  destruct (rb_free lg (rb s)) eqn:Ef; cbn [negb andb] in E.
  - destruct (negb _); injection E as <- <-; apply sleep_set; auto.
    rewrite <- firstn_we. apply sleep_we; auto. apply sleep_noW; auto.
  - destruct (rc_eqb ret ETIMEDOUT) eqn:Er; cbn [negb andb] in E.
    + injection E as <- <-. apply sleep_set; auto.
    + destruct (acl_has (rb s) ACL_FLOWDOWN) eqn:Ed; cbn [negb] in E; injection E as <- <-;
      apply sleep_set; auto.
      rewrite <- firstn_we. apply sleep_we; auto. apply sleep_noW; auto.
Qed.

Lemma rc_eqb_eq a b : rc_eqb a b = true -> a = b.
Proof. destruct a, b; simpl; congruence. Qed.

Lemma rb_loop_sleep s t w s' es : sleep_ok s ->
  read_b_loop lg s t w = (s', es) -> sleep_ok s'.
Proof.
  intros H E. unfold read_b_loop in E; cbv zeta in E.
  destruct (rb_empty (rb s)) eqn:Ee; cbn [negb andb] in E.
  - set (to := match w with Some WakeTimeout => true | _ => false end) in *.
    destruct to; cbn [negb andb] in E.
    + injection E as <- <-. apply sleep_set; auto.
    + destruct (rc_eqb (check_rb_acl (rb s)) EAGAIN) eqn:Ec; injection E as <- <-;
      apply sleep_set; auto. split; auto. apply rc_eqb_eq; auto.
  - injection E as <- <-. apply sleep_set; auto.
    apply (sleep_re s 2); auto.
Qed.

Lemma fini_step_sleep s t s' es : sleep_ok s -> do_fini s t = (s', es) -> sleep_ok s'.
Proof.
  intros H E. unfold do_fini in E. destruct (negb _); injection E as <- <-; apply sleep_set; auto.
Qed.

Lemma step_sleep s l s' es : no_read_death s l -> sleep_ok s -> step lg s l = Some (s', es) -> sleep_ok s'.
Proof.
  intros Hok H E.
  destruct l as [t idx|t idx|t|t|f|t|t|t w|t|t idx n|t n]; cbn [step] in E.
  - destruct (thr s t); try discriminate. injection E as E. unfold do_write in E.
    destruct (write_acl_check (rb s)); [injection E as <- <-; auto|].
    destruct (rb_free lg (rb s)) eqn:Ef; cbn [negb] in E; injection E as <- <-; auto.
    rewrite <- firstn_we. apply sleep_we; auto. apply sleep_noW; auto.
  - destruct (thr s t); try discriminate. injection E as E. unfold do_write_b in E.
    destruct (write_acl_check (rb s)); [injection E as <- <-; auto|]. eapply wb_loop_sleep; eauto.
  - destruct (thr s t); try discriminate. injection E as E. unfold do_read in E.
    destruct (rb_empty (rb s)) eqn:Ee; injection E as <- <-; auto. apply (sleep_re s 2); auto.
  - destruct (thr s t); try discriminate. injection E as E. unfold do_read_b in E.
    destruct (_ && _); [injection E as <- <-; auto|]. eapply rb_loop_sleep; eauto.
  - injection E as <- <-. apply sleep_ok_none; [apply nsR_add|].
    intros t a i. cbn. destruct (thr s t); cbn; discriminate.
  - destruct (thr s t); try discriminate. injection E as <- <-. auto.
  - destruct (thr s t); try discriminate. injection E as E. eapply fini_step_sleep; eauto.
  - destruct (thr s t); try discriminate; try (injection E as <- <-; apply sleep_set; auto).
    destruct w; try discriminate; injection E as <- <-; apply sleep_set; auto.
  - destruct (thr s t); try discriminate; injection E as E.
    + eapply wb_loop_sleep; eauto.
    + eapply rb_loop_sleep; eauto.
    + eapply fini_step_sleep; eauto.
  - destruct (thr s t); try discriminate. destruct (write_acl_check (rb s)); try discriminate.
    destruct (rb_free lg (rb s)) eqn:Ef; try discriminate. injection E as <- <-.
    apply sleep_set; auto. apply sleep_we; auto. apply sleep_noW; auto.
  - destruct (thr s t); try discriminate. destruct (rb_empty (rb s)) eqn:Ee; try discriminate.
    injection E as <- <-. apply sleep_set; auto. apply sleep_re; auto.
Qed.

Lemma exec_sleep s evs : exec lg no_read_death s evs -> sleep_ok s.
Proof.
  intros H. induction H as [|s evs l s' es H IH Hok E]; [intros t; exact I|].
  eapply step_sleep; eauto.
Qed.

Theorem c04_sleep s evs t : exec lg no_read_death s evs ->
  (thr s t = SleepR -> contents lg (rb s) = [] /\
     acl_has (rb s) ACL_FLOWDOWN = false /\ acl_has (rb s) ACL_FLOWPEER = false) /\
  (forall a i, thr s t = SleepW a i ->
     length (contents lg (rb s)) = capacity lg /\ acl_has (rb s) ACL_FLOWDOWN = false).
Proof.
  intros H. pose proof (exec_range _ _ _ H) as Hr. pose proof (exec_sleep s evs H t) as Hs. split.
  - intros E. rewrite E in Hs. destruct Hs as [He Hc]. split; [apply contents_empty; auto|].
    unfold check_rb_acl in Hc. destruct (acl_has _ ACL_FLOWDOWN); [discriminate|].
    destruct (acl_has _ ACL_FLOWPEER); [discriminate|]. auto.
  - intros a i E. rewrite E in Hs. destruct Hs. split; auto. apply contents_full; auto.
Qed.

(** fini *)

Lemma fini_none s : no_sleepF s -> fini_ok s.
Proof. intros H t E. destruct (H t E). Qed.

Lemma bump_nonempty r idx : in_range r -> rb_free lg r = true ->
  rb_empty (bump_head lg (store_head idx r)) = false.
Proof.
  intros H Hf. destruct (write_contents r idx H Hf) as [Hc Hr].
  destruct (rb_empty _) eqn:E; auto. apply contents_empty in E; auto. rewrite Hc in E.
  destruct (contents lg r); discriminate.
Qed.

Lemma fini_we s idx n : in_range (rb s) -> rb_free lg (rb s) = true -> fini_ok s ->
  fini_ok (apply_effects (firstn n (write_effects lg s idx)) s).
Proof.
  intros Hr Hf H t E. rewrite we_thr in E.
  assert (thr s t = SleepF) as E'.
  { destruct (_ && _) in E; auto. destruct (thr s t); cbn in E; congruence. }
  specialize (H t E').
  destruct (die_write_rb s idx n) as [-> |[-> | ->]]; auto. apply bump_nonempty; auto.
Qed.

Lemma fini_re s n : n <> 1%nat -> fini_ok s ->
  fini_ok (apply_effects (firstn n (read_effects lg)) s).
Proof.
  intros Hn H. destruct n as [|[|n]]; [exact H|congruence|].
  replace (firstn (S (S n)) (read_effects lg)) with (read_effects lg) by (destruct n; reflexivity).
  apply fini_none. apply nsF_del.
Qed.

Lemma wb_loop_fini s t a idx ret s' es : in_range (rb s) -> fini_ok s ->
  (ret <> ETIMEDOUT -> acl_has (rb s) ACL_FLOWDOWN = true -> rb_free lg (rb s) = false -> False) ->
  write_b_loop lg s t a idx ret = (s', es) -> fini_ok s'.
Proof.
  intros Hr H Hb E. unfold write_b_loop in E.
  destruct (rc_eqb ret ETIMEDOUT) eqn:Et.
  - rewrite andb_false_r in E. cbn [negb andb] in E. injection E as <- <-.
    apply fini_set; auto. discriminate.
  - assert (ret <> ETIMEDOUT) by (intros ->; discriminate). cbn [negb] in E. rewrite andb_true_r in E.
    destruct (rb_free lg (rb s)) eqn:Ef; cbn [negb andb] in E.
    + injection E as <- <-. apply fini_set; [|discriminate].
      rewrite <- firstn_we. apply fini_we; auto.
    + destruct (acl_has (rb s) ACL_FLOWDOWN) eqn:Ed; [exfalso; auto|].
      cbn [negb] in E. injection E as <- <-. apply fini_set; auto. discriminate.
Qed.

Lemma rb_loop_fini s t w s' es : fini_ok s -> read_b_loop lg s t w = (s', es) -> fini_ok s'.
Proof.
  intros H E. unfold read_b_loop in E; cbv zeta in E.
  destruct (rb_empty (rb s) && _ && _) in E.
  - injection E as <- <-. apply fini_set; auto. discriminate.
  - destruct (negb (rb_empty _)) in E.
    + injection E as <- <-. apply fini_set; [|discriminate]. apply (fini_re s 2); auto.
    + destruct (negb _) in E; injection E as <- <-; apply fini_set; auto; discriminate.
Qed.

Lemma do_fini_fini s t s' es : fini_ok s -> do_fini s t = (s', es) -> fini_ok s'.
Proof.
  intros H E. unfold do_fini in E. destruct (rb_empty (rb s)) eqn:Ee; cbn [negb] in E;
  injection E as <- <-; apply fini_set; auto; discriminate.
Qed.

Lemma step_fini s l s' es : no_down_release lg s l -> in_range (rb s) -> fini_ok s ->
  step lg s l = Some (s', es) -> fini_ok s'.
Proof.
  intros [Hok Hb] Hr H E.
  destruct l as [t idx|t idx|t|t|f|t|t|t w|t|t idx n|t n]; cbn [step] in E.
  - destruct (thr s t); try discriminate. injection E as E. unfold do_write in E.
    destruct (write_acl_check (rb s)); [injection E as <- <-; auto|].
    destruct (rb_free lg (rb s)) eqn:Ef; cbn [negb] in E; injection E as <- <-; auto.
    rewrite <- firstn_we. apply fini_we; auto.
  - destruct (thr s t); try discriminate. injection E as E. unfold do_write_b in E.
    destruct (write_acl_check (rb s)) eqn:Ea; [injection E as <- <-; auto|].
    refine (wb_loop_fini s t _ idx OK s' es Hr H _ E). intros _ Hd _. apply acl_check_none in Ea.
    unfold acl_has in Hd. rewrite Ea in Hd. discriminate.
  - destruct (thr s t); try discriminate. injection E as E. unfold do_read in E.
    destruct (rb_empty (rb s)) eqn:Ee; injection E as <- <-; auto. apply (fini_re s 2); auto.
  - destruct (thr s t); try discriminate. injection E as E. unfold do_read_b in E.
    destruct (_ && _); [injection E as <- <-; auto|]. eapply rb_loop_fini; eauto.
  - injection E as <- <-. apply fini_none. intros t. cbn. destruct (thr s t); cbn; discriminate.
  - destruct (thr s t); try discriminate. injection E as <- <-. auto.
  - destruct (thr s t); try discriminate. injection E as E. eapply do_fini_fini; eauto.
  - destruct (thr s t) eqn:Et; try discriminate; try (injection E as <- <-; apply fini_set; auto; discriminate).
    destruct w; try discriminate; injection E as <- <-; apply fini_set; auto; discriminate.
  - destruct (thr s t) as [| |a i w| |w| | |] eqn:Et; try discriminate; injection E as E.
    + refine (wb_loop_fini s t _ _ _ s' es Hr H _ E).
      intros Hw Hd Hf. destruct w; cbn in Hw; try congruence; auto.
    + eapply rb_loop_fini; eauto.
    + eapply do_fini_fini; eauto.
  - destruct (thr s t); try discriminate. destruct (write_acl_check (rb s)); try discriminate.
    destruct (rb_free lg (rb s)) eqn:Ef; try discriminate. injection E as <- <-.
    apply fini_set; [|discriminate]. apply fini_we; auto.
  - destruct (thr s t); try discriminate. destruct (rb_empty (rb s)) eqn:Ee; try discriminate.
    injection E as <- <-. apply fini_set; [|discriminate]. apply fini_re; auto.
Qed.

Theorem c04_fini s evs t : exec lg (no_down_release lg) s evs ->
  thr s t = SleepF -> contents lg (rb s) <> [].
Proof.
  intros H E. pose proof (exec_range _ _ _ H) as Hr.
  assert (Hf : fini_ok s).
  { clear t E Hr. induction H as [|s evs l s' es H IH Hok E]; [intros t; discriminate|].
    eapply step_fini; eauto. eapply exec_range; eauto. }
  specialize (Hf t E). intros Hc. apply contents_empty in Hc; auto. congruence.
Qed.

(** ** crashes (C05) *)

Theorem c05_die_write ok s evs t idx n s' es :
  exec lg ok s evs -> step lg s (LDieWrite t idx n) = Some (s', es) ->
  contents lg (rb s') = contents lg (rb s) \/ contents lg (rb s') = contents lg (rb s) ++ [idx].
Proof.
  intros H E. pose proof (exec_range _ _ _ H) as Hr. cbn [step] in E.
  destruct (thr s t); try discriminate. destruct (write_acl_check (rb s)); try discriminate.
  destruct (rb_free lg (rb s)) eqn:Ef; try discriminate. injection E as <- <-. unfold set_thr; cbn [rb].
  destruct (die_write_rb s idx n) as [-> |[-> | ->]]; auto.
  - left. apply store_contents; auto.
  - right. apply write_contents; auto.
Qed.

Theorem c05_die_read ok s evs t n s' es :
  exec lg ok s evs -> step lg s (LDieRead t n) = Some (s', es) ->
  contents lg (rb s') = contents lg (rb s) \/
  exists idx, contents lg (rb s) = idx :: contents lg (rb s').
Proof.
  intros H E. pose proof (exec_range _ _ _ H) as Hr. cbn [step] in E.
  destruct (thr s t); try discriminate. destruct (rb_empty (rb s)) eqn:Ee; try discriminate.
  injection E as <- <-. unfold set_thr; cbn [rb].
  destruct (die_read_rb s n) as [-> | ->]; auto.
  right. eexists. apply read_contents; auto.
Qed.

(** Histories with deaths: the queue still accounts for every packet. *)
Definition fake (W R : list N) : list event :=
  map (fun i => EvWrite 0 ACL_RDWR i OK) W ++ map (fun i => EvRead 0 (inr i)) R.

Lemma fake_written W R : written (fake W R) = W.
Proof.
  unfold fake. rewrite written_app.
  assert (written (map (fun i => EvRead 0 (inr i)) R) = []) as ->.
  { induction R; auto. }
  rewrite app_nil_r. induction W; cbn; auto. f_equal. exact IHW.
Qed.
Lemma fake_delivered W R : delivered (fake W R) = R.
Proof.
  unfold fake. rewrite delivered_app.
  assert (delivered (map (fun i => EvWrite 0 ACL_RDWR i OK) W) = []) as ->.
  { induction W; auto. }
  cbn [app]. induction R; cbn; auto. f_equal. exact IHR.
Qed.

Lemma sub_app {A} (a b c d : list A) : subseq a b -> subseq c d -> subseq (a ++ c) (b ++ d).
Proof. intros H1 H2. induction H1; cbn; auto; constructor; auto. Qed.
Lemma sub_refl {A} (a : list A) : subseq a a.
Proof. induction a; constructor; auto. Qed.
Lemma sub_nil {A} (a : list A) : subseq [] a.
Proof. induction a; constructor; auto. Qed.

Lemma exec_deaths s evs : exec lg (benign_or_death lg) s evs ->
  calls_ok s /\
  exists W R, in_range (rb s) /\ W = R ++ contents lg (rb s) /\
    subseq (written evs) W /\ subseq (delivered evs) R.
Proof.
  intros H. induction H as [|s evs l s' es H IH Hok E].
  - split; [intros t; exact I|]. exists [], []. split; [apply init_range|]. split.
    + symmetry. apply contents_empty; [apply init_range|]. reflexivity.
    + split; constructor.
  - destruct IH as (Hc & W & R & Hr & HW & Hw & Hd).
    assert (Hx : wr s (fake W R)).
    { split; auto. rewrite fake_written, fake_delivered. auto. }
    destruct l as [t idx|t idx|t|t|f|t|t|t w|t|t idx n|t n].
    10:{ pose proof (step_range _ _ _ _ Hr E) as Hr'.
      destruct (c05_die_write _ _ _ _ _ _ _ _ H E) as [K|K].
      - cbn [step] in E. destruct (thr s t); try discriminate.
        destruct (write_acl_check (rb s)); try discriminate.
        destruct (rb_free lg (rb s)); try discriminate. injection E as <- <-.
        rewrite app_nil_r. split.
        + apply calls_set; auto. unfold write_effects. destruct (rb_empty (rb s)); cbn [app].
          * destruct n as [|[|[|n]]]; cbn [firstn]; unfold apply_effects; cbn [fold_left]; auto using calls_rb, calls_add.
            destruct n; cbn [fold_left firstn]; auto using calls_rb, calls_add.
          * destruct n as [|[|n]]; cbn [firstn]; unfold apply_effects; cbn [fold_left]; auto using calls_rb, calls_add.
            destruct n; cbn [fold_left firstn]; auto using calls_rb, calls_add.
        + exists W, R. rewrite K. auto.
      - cbn [step] in E. destruct (thr s t); try discriminate.
        destruct (write_acl_check (rb s)); try discriminate.
        destruct (rb_free lg (rb s)); try discriminate. injection E as <- <-.
        rewrite app_nil_r. split.
        + apply calls_set; auto. unfold write_effects. destruct (rb_empty (rb s)); cbn [app].
          * destruct n as [|[|[|n]]]; cbn [firstn]; unfold apply_effects; cbn [fold_left]; auto using calls_rb, calls_add.
            destruct n; cbn [fold_left firstn]; auto using calls_rb, calls_add.
          * destruct n as [|[|n]]; cbn [firstn]; unfold apply_effects; cbn [fold_left]; auto using calls_rb, calls_add.
            destruct n; cbn [fold_left firstn]; auto using calls_rb, calls_add.
        + exists (W ++ [idx]), R. rewrite K. repeat split; auto; try (apply Hr').
          * rewrite HW, app_assoc. auto.
          * rewrite <- (app_nil_r (written evs)). apply sub_app; auto. apply sub_nil. }
    10:{ pose proof (step_range _ _ _ _ Hr E) as Hr'.
      destruct (c05_die_read _ _ _ _ _ _ _ H E) as [K|[i K]];
        cbn [step] in E; destruct (thr s t); try discriminate;
        destruct (rb_empty (rb s)); try discriminate; injection E as <- <-;
        rewrite app_nil_r; (split;
        [apply calls_set; auto; unfold read_effects; destruct n as [|[|n]]; cbn [firstn];
         unfold apply_effects; cbn [fold_left]; auto using calls_rb, calls_del;
         destruct n; cbn [fold_left firstn]; auto using calls_rb, calls_del|]).
      - exists W, R. rewrite K. auto.
      - exists W, (R ++ [i]). repeat split; auto; try (apply Hr').
        + rewrite HW, K, <- app_assoc. auto.
        + rewrite <- (app_nil_r (delivered evs)). apply sub_app; auto. apply sub_nil. }
    all: destruct (step_inv s (fake W R) _ s' es Hx Hc Hok E) as [[Hr' Hw'] Hc'];
      (split; [exact Hc'|]);
      exists (W ++ written es), (R ++ delivered es);
      rewrite written_app, delivered_app, fake_written, fake_delivered in Hw';
      (split; [exact Hr'|]); (split; [exact Hw'|]);
      rewrite written_app, delivered_app; split; apply sub_app; auto using sub_refl.
Qed.

(** After any history with any deaths, completed reads and writes still act on
    the queue as specified. *)
Theorem c05_still_works ok s evs t idx s' es :
  exec lg ok s evs ->
  (step lg s (LWrite t idx) = Some (s', es) -> acl (rb s) = ACL_RDWR ->
     (es = [EvWrite t ACL_RDWR idx OK] /\ contents lg (rb s') = contents lg (rb s) ++ [idx]) \/
     (es = [EvWrite t ACL_RDWR idx EAGAIN] /\ length (contents lg (rb s)) = capacity lg /\
      contents lg (rb s') = contents lg (rb s))) /\
  (step lg s (LRead t) = Some (s', es) ->
     (exists i, es = [EvRead t (inr i)] /\ contents lg (rb s) = i :: contents lg (rb s')) \/
     (exists r, es = [EvRead t (inl r)] /\ contents lg (rb s) = [] /\ contents lg (rb s') = [])).
Proof.
  intros H. pose proof (exec_range _ _ _ H) as Hr. split.
  - intros E Ha. cbn [step] in E. destruct (thr s t); try discriminate. injection E as E.
    unfold do_write in E. assert (write_acl_check (rb s) = None) as Hn.
    { unfold write_acl_check. rewrite Ha. reflexivity. }
    rewrite Hn in E. rewrite Ha in E.
    destruct (rb_free lg (rb s)) eqn:Ef; cbn [negb] in E; injection E as <- <-.
    + left. split; auto. rewrite we_full. apply write_contents; auto.
    + right. repeat split; auto. apply contents_full; auto.
  - intros E. cbn [step] in E. destruct (thr s t); try discriminate. injection E as E.
    unfold do_read in E. destruct (rb_empty (rb s)) eqn:Ee; injection E as <- <-.
    + right. apply contents_empty in Ee; auto. eauto.
    + left. eexists. split; [reflexivity|]. apply read_contents; auto.
Qed.

(** ** access control (C06, the part that holds) *)

Theorem c06_acl ok s evs :
  exec lg ok s evs ->
  (forall f s' es, step lg s (LSetAcl f) = Some (s', es) ->
     contents lg (rb s') = contents lg (rb s) /\ acl (rb s') = f) /\
  (forall t idx l s' es, l = LWrite t idx \/ l = LWriteB t idx ->
     step lg s l = Some (s', es) ->
     (acl_has (rb s) ACL_FLOWDOWN = true -> s' = s /\ es = [EvWrite t (acl (rb s)) idx EFLOWDOWN]) /\
     (acl_has (rb s) ACL_FLOWDOWN = false -> acl_has (rb s) ACL_RDONLY = true ->
        s' = s /\ es = [EvWrite t (acl (rb s)) idx ENOTALLOC])).
Proof.
  intros H. split.
  - intros f s' es E. cbn [step] in E. injection E as <- <-. split; reflexivity.
  - intros t idx l s' es Hl E.
    assert (forall x, write_acl_check (rb s) = Some x -> s' = s /\ es = [EvWrite t (acl (rb s)) idx x]) as K.
    { intros x Hx. destruct Hl as [-> | ->]; cbn [step] in E; destruct (thr s t); try discriminate;
      unfold do_write, do_write_b in E; rewrite Hx in E; injection E as <- <-; auto. }
    split.
    + intros Hd. apply K. unfold write_acl_check.
      destruct (acl (rb s) =? ACL_RDWR) eqn:E0.
      * apply N.eqb_eq in E0. unfold acl_has in Hd. rewrite E0 in Hd. discriminate.
      * rewrite Hd. reflexivity.
    + intros Hd Ho. apply K. unfold write_acl_check.
      destruct (acl (rb s) =? ACL_RDWR) eqn:E0.
      * apply N.eqb_eq in E0. unfold acl_has in Ho. rewrite E0 in Ho. discriminate.
      * rewrite Hd, Ho. reflexivity.
Qed.

Lemma run_exec (ok : sys -> label -> Prop) : forall ls s evs s' es,
  (forall s l, ok s l) ->
  exec lg ok s evs -> run lg s ls = Some (s', es) -> exec lg ok s' (evs ++ es).
Proof.
  induction ls as [|l ls IH]; intros s evs s' es Hok H E; cbn [run] in E.
  - injection E as <- <-. rewrite app_nil_r. auto.
  - destruct (step lg s l) as [[s1 es1]|] eqn:E1; [|discriminate].
    destruct (run lg s1 ls) as [[s2 es2]|] eqn:E2; [|discriminate].
    injection E as <- <-. rewrite app_assoc. eapply IH; eauto. econstructor; eauto.
Qed.

(** Same, checking a boolean version of the side condition along the way. *)
Fixpoint run_ok (okb : sys -> label -> bool) (s : sys) (ls : list label) : bool :=
  match ls with
  | [] => true
  | l :: ls' => okb s l && match step lg s l with Some (s', _) => run_ok okb s' ls' | None => true end
  end.

Lemma run_exec_ok (ok : sys -> label -> Prop) okb : (forall s l, okb s l = true -> ok s l) ->
  forall ls s evs s' es, run_ok okb s ls = true ->
  exec lg ok s evs -> run lg s ls = Some (s', es) -> exec lg ok s' (evs ++ es).
Proof.
  intros Hokb. induction ls as [|l ls IH]; intros s evs s' es Hb H E; cbn [run] in E.
  - injection E as <- <-. rewrite app_nil_r. auto.
  - cbn [run_ok] in Hb. apply andb_true_iff in Hb. destruct Hb as [Hb1 Hb2].
    destruct (step lg s l) as [[s1 es1]|] eqn:E1; [|discriminate].
    destruct (run lg s1 ls) as [[s2 es2]|] eqn:E2; [|discriminate].
    injection E as <- <-. rewrite app_assoc. eapply IH; eauto. econstructor; eauto.
Qed.
End P.

(** ** witnesses *)

Definition fill (n : nat) : list label := map (fun i => LWrite 0 (N.of_nat i)) (seq 0 n).

(** Fill the default ring and block a writer. *)
Definition pre_down_schedule : list label := fill 1023 ++ [LWriteB 1 5000].

(** Existence of executions from a computed schedule. *)
Lemma run_witness lg (ok : sys -> label -> Prop) okb ls (P : sys -> list event -> Prop) :
  (forall s l, okb s l = true -> ok s l) ->
  run_ok lg okb sys_init ls = true ->
  match run lg sys_init ls with Some (s, es) => P s es | None => False end ->
  exists s es, exec lg ok s es /\ P s es.
Proof.
  intros Hok Hr K. destruct (run lg sys_init ls) as [[s es]|] eqn:E; [|destruct K].
  exists s, es. split; auto. exact (run_exec_ok lg ok okb Hok ls _ [] _ _ Hr (exec_init _ _) E).
Qed.
