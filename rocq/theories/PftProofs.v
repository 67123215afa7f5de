From Coq Require Import List NArith ZArith Bool Lia.
From Coq Require Import ZifyBool ZifyNat ZifyN.
From Verif Require Import PftModel PftSpec.
Import ListNotations.
Open Scope N_scope.

(** ** rounding up to a power of two *)

(** [cov x y k]: bit i of y is set iff x has a bit set in [i, i+k). *)
Definition cov (x y k : N) : Prop :=
  forall i, N.testbit y i = true <-> exists j, i <= j /\ j < i + k /\ N.testbit x j = true.

Lemma cov_smear x y k : cov x y k -> cov x (smear y k) (k + k).
Proof.
  intros H i. unfold smear. rewrite N.lor_spec, N.shiftr_spec by lia.
  rewrite orb_true_iff, (H i), (H (i + k)). split.
  - intros [(j & H1 & H2 & H3)|(j & H1 & H2 & H3)]; exists j; repeat split; auto; lia.
  - intros (j & H1 & H2 & H3). destruct (N.lt_ge_cases j (i + k)).
    + left. exists j. auto.
    + right. exists j. repeat split; auto; lia.
Qed.

Lemma cov_one x : cov x x 1.
Proof.
  intros i. split.
  - intros H. exists i. repeat split; auto; lia.
  - intros (j & H1 & H2 & H3). assert (j = i) as -> by lia. auto.
Qed.

Lemma high_bits_zero x n : x < 2 ^ n -> forall j, n <= j -> N.testbit x j = false.
Proof.
  intros H j Hj. destruct (N.eq_dec x 0) as [->|Hx]; [apply N.bits_0|].
  apply N.bits_above_log2. apply N.log2_lt_pow2 in H; lia.
Qed.

Lemma smear_all x : x < 2 ^ 64 ->
  smear (smear (smear (smear (smear (smear x 1) 2) 4) 8) 16) 32 = N.ones (N.size x).
Proof.
  intros Hx.
  assert (H : cov x (smear (smear (smear (smear (smear (smear x 1) 2) 4) 8) 16) 32) 64).
  { do 6 (match goal with |- cov _ _ ?k => replace k with (N.div2 k + N.div2 k) by reflexivity end;
          apply cov_smear; cbn [N.div2]). apply cov_one. }
  apply N.bits_inj. intros i. apply eq_true_iff_eq. rewrite (H i). clear H.
  destruct (N.eq_dec x 0) as [->|Hn].
  - cbn [N.size]. rewrite N.bits_0. split; [intros (j & _ & _ & E); rewrite N.bits_0 in E; auto|discriminate].
  - rewrite N.size_log2 by auto. split.
    + intros (j & H1 & H2 & H3). apply N.ones_spec_iff.
      destruct (N.lt_ge_cases (N.log2 x) j) as [E|E]; [|lia].
      rewrite N.bits_above_log2 in H3; [discriminate|auto].
    + intros Hi. apply N.ones_spec_iff in Hi. exists (N.log2 x).
      split; [lia|]. split; [|apply N.bit_log2; auto].
      assert (N.log2 x < 64) by (apply N.log2_lt_pow2; lia). lia.
Qed.

Lemma round_up_spec n : 1 <= n -> n <= 2 ^ 63 ->
  exists k, round_up_pow2 n = 2 ^ k /\ n <= 2 ^ k /\ (forall j, n <= 2 ^ j -> k <= j).
Proof.
  intros H1 H2. unfold round_up_pow2.
  assert (Hlt : n - 1 < 2 ^ 64).
  { assert (2 ^ 63 < 2 ^ 64) by (apply N.pow_lt_mono_r; lia). lia. }
  rewrite smear_all by auto. rewrite N.ones_equiv.
  exists (N.size (n - 1)).
  assert (Hs : N.size (n - 1) <= 63).
  { destruct (N.eq_dec (n - 1) 0) as [E|E]; [rewrite E; cbn; lia|].
    rewrite N.size_log2 by auto.
    assert (N.log2 (n - 1) < 63) by (apply N.log2_lt_pow2; lia). lia. }
  assert (Hp : 2 ^ N.size (n - 1) <= 2 ^ 63) by (apply N.pow_le_mono_r; lia).
  assert (Hz : 2 ^ N.size (n - 1) <> 0) by (apply N.pow_nonzero; lia).
  replace (N.pred (2 ^ N.size (n - 1)) + 1) with (2 ^ N.size (n - 1)) by lia.
  split.
  - unfold two64. apply N.mod_small.
    assert (2 ^ 63 < 2 ^ 64) by (apply N.pow_lt_mono_r; lia). lia.
  - split.
    + pose proof (N.size_gt (n - 1)). lia.
    + intros j Hj. destruct (N.eq_dec (n - 1) 0) as [E|E]; [rewrite E; cbn; lia|].
      rewrite N.size_log2 by auto.
      assert (N.log2 (n - 1) < j) by (apply N.log2_lt_pow2; lia). lia.
Qed.

Section P.
Variable V : Type.
Implicit Types (p : pft V) (m : fmap V) (b : list (N * V)).

(** ** one bucket *)

Lemma find_modify b d f x : bucket_find (bucket_modify b d f) x =
  if x =? d then option_map f (bucket_find b d) else bucket_find b x.
Proof.
  induction b as [|[e v] t IH]; simpl; [destruct (x =? d); auto|].
  destruct (e =? d) eqn:E; simpl.
  - destruct (x =? d) eqn:Ex.
    + assert (e =? x = true) as -> by lia. auto.
    + assert (e =? x = false) as -> by lia. auto.
  - rewrite IH. destruct (x =? d) eqn:Ex; auto.
    assert (e =? x = false) as -> by lia. auto.
Qed.

Lemma modify_keys b d f : map fst (bucket_modify b d f) = map fst b.
Proof.
  induction b as [|[e v] t IH]; simpl; auto. destruct (e =? d); simpl; congruence.
Qed.

Lemma find_none b d : bucket_find b d = None <-> ~ In d (map fst b).
Proof.
  induction b as [|[e v] t IH]; simpl; [tauto|]. destruct (e =? d) eqn:E.
  - split; [discriminate|]. intros H. destruct H. left. lia.
  - rewrite IH. split; intros H; [intros [H2|H2]; [lia|auto]|auto].
Qed.

Lemma remove_keys b d : incl (map fst (bucket_remove b d)) (map fst b).
Proof.
  induction b as [|[e v] t IH]; simpl; [apply incl_refl|].
  destruct (e =? d); simpl; [apply incl_tl, incl_refl|].
  intros x [H|H]; [left; auto|right; auto].
Qed.

Lemma remove_nodup b d : NoDup (map fst b) -> NoDup (map fst (bucket_remove b d)).
Proof.
  induction b as [|[e v] t IH]; simpl; auto. intros H. inversion H; subst.
  destruct (e =? d); simpl; auto. constructor; auto. intros Hi. apply remove_keys in Hi. auto.
Qed.

Lemma find_remove b d x : NoDup (map fst b) -> bucket_find (bucket_remove b d) x =
  if x =? d then None else bucket_find b x.
Proof.
  induction b as [|[e v] t IH]; simpl; intros H; [destruct (x =? d); auto|].
  inversion H; subst. destruct (e =? d) eqn:E; simpl.
  - destruct (x =? d) eqn:Ex.
    + apply find_none. assert (x = e) as -> by lia. auto.
    + assert (e =? x = false) as -> by lia. auto.
  - rewrite IH by auto. destruct (x =? d) eqn:Ex; auto.
    assert (e =? x = false) as -> by lia. auto.
Qed.

(** ** the table represents a map *)

Definition rep p m : Prop :=
  exists k, buckets_size p = 2 ^ k /\ length (buckets p) = N.to_nat (2 ^ k) /\
    (forall i b, nth_error (buckets p) i = Some b -> NoDup (map fst b)) /\
    (forall d b, get_bucket p (calc_key p d) = Some b -> bucket_find b d = m d).

Lemma key_lt p k d : buckets_size p = 2 ^ k -> calc_key p d < 2 ^ k.
Proof.
  intros H. unfold calc_key. rewrite H.
  replace (2 ^ k - 1) with (N.ones k) by (rewrite N.ones_equiv; lia).
  rewrite N.land_ones. apply N.mod_lt, N.pow_nonzero. lia.
Qed.

Lemma rep_bucket p m d : rep p m -> exists b, get_bucket p (calc_key p d) = Some b /\
  NoDup (map fst b) /\ bucket_find b d = m d.
Proof.
  intros (k & Hs & Hl & Hn & Hf). pose proof (key_lt p k d Hs) as Hk.
  destruct (get_bucket p (calc_key p d)) as [b|] eqn:E.
  - exists b. split; auto. split; [eapply Hn; apply E|]. apply Hf. auto.
  - apply nth_error_None in E. lia.
Qed.

Lemma upd_length {A} (l : list A) i x : length (upd l i x) = length l.
Proof. revert i. induction l; destruct i; simpl; auto. Qed.

Lemma upd_nth {A} (l : list A) i j x : nth_error (upd l i x) j =
  if Nat.eqb j i then match nth_error l j with Some _ => Some x | None => None end else nth_error l j.
Proof.
  revert i j. induction l as [|y l IH]; intros i j; simpl.
  - destruct (Nat.eqb j i); destruct j; auto.
  - destruct i, j; simpl; auto.
Qed.

(** Replacing one bucket. *)
Lemma rep_set p m d b b' m' : rep p m -> get_bucket p (calc_key p d) = Some b ->
  NoDup (map fst b') ->
  (forall x, calc_key p x = calc_key p d -> bucket_find b' x = m' x) ->
  (forall x, calc_key p x <> calc_key p d -> m' x = m x) ->
  rep (set_bucket p (calc_key p d) b') m'.
Proof.
  intros (k & Hs & Hl & Hn & Hf) Hb Hnd H1 H2.
  exists k. split; [exact Hs|]. split; [cbn [set_bucket buckets]; rewrite upd_length; exact Hl|]. split.
  - intros i c E. cbn [set_bucket buckets] in E. rewrite upd_nth in E.
    destruct (Nat.eqb i _) eqn:Ei.
    + destruct (nth_error (buckets p) i); [|discriminate]. injection E as <-. auto.
    + eapply Hn. eauto.
  - intros x c E. unfold get_bucket in E. change (calc_key (set_bucket p (calc_key p d) b') x) with (calc_key p x) in E.
    cbn [set_bucket buckets] in E. rewrite upd_nth in E.
    destruct (N.to_nat (calc_key p x) =? N.to_nat (calc_key p d))%nat eqn:Ei.
    + assert (Hk : calc_key p x = calc_key p d) by lia. unfold get_bucket in Hb.
      rewrite Hk, Hb in E. injection E as <-. apply H1. auto.
    + rewrite H2 by (intros Hk; rewrite Hk, Nat.eqb_refl in Ei; discriminate).
      apply Hf. exact E.
Qed.

Lemma rep_create n h : 1 <= n -> n <= 2 ^ 63 ->
  exists p, pft_create n h = Some p /\ rep p fempty.
Proof.
  intros H1 H2. unfold pft_create. destruct (n =? 0) eqn:E; [lia|].
  eexists. split; [reflexivity|].
  destruct (round_up_spec n H1 H2) as (k & Hk & _).
  exists k. cbn [buckets_size buckets]. split; [exact Hk|]. rewrite Hk. split; [apply repeat_length|].
  assert (Hnil : forall i b, nth_error (repeat (@nil (N * V)) (N.to_nat (2 ^ k))) i = Some b -> b = []).
  { intros i b Hi. apply nth_error_In, repeat_spec in Hi. auto. }
  split.
  - intros i b Hi. apply Hnil in Hi. subst. constructor.
  - intros d b Hi. apply Hnil in Hi. subst. reflexivity.
Qed.

Lemma rep_flush p m : rep p m -> rep (pft_flush p) fempty.
Proof.
  intros (k & Hs & Hl & Hn & Hf). exists k. cbn [pft_flush buckets buckets_size].
  split; [exact Hs|]. split; [rewrite map_length; exact Hl|].
  assert (Hnil : forall i b, nth_error (map (fun _ => @nil (N * V)) (buckets p)) i = Some b -> b = []).
  { intros i b Hi. apply nth_error_In in Hi. apply in_map_iff in Hi. destruct Hi as (? & ? & _). auto. }
  split.
  - intros i b Hi. apply Hnil in Hi. subst. constructor.
  - intros d b Hi. apply Hnil in Hi. subst. reflexivity.
Qed.

Lemma rep_lookup p m d : rep p m -> pft_lookup p d = Some (m d).
Proof.
  intros H. destruct (rep_bucket p m d H) as (b & E & _ & Hf). unfold pft_lookup. rewrite E. congruence.
Qed.

Lemma rep_insert p m d v : rep p m ->
  match m d with
  | Some _ => pft_insert p d v = Some (p, (-1)%Z)
  | None => exists p', pft_insert p d v = Some (p', 0%Z) /\ rep p' (fset m d (Some v))
  end.
Proof.
  intros H. destruct (rep_bucket p m d H) as (b & E & Hnd & Hf). unfold pft_insert. rewrite E, Hf.
  destruct (m d) eqn:Em; [reflexivity|]. eexists. split; [reflexivity|].
  eapply rep_set; eauto.
  - simpl. constructor; auto. apply find_none. auto.
  - intros x Hx. simpl. unfold fset. destruct (d =? x) eqn:Ex.
    + assert (x =? d = true) as -> by lia. auto.
    + assert (x =? d = false) as -> by lia.
      destruct (rep_bucket p m x H) as (b2 & E2 & _ & Hf2). rewrite Hx in E2. congruence.
  - intros x Hx. unfold fset. destruct (x =? d) eqn:Ex; auto. assert (x = d) by lia. congruence.
Qed.

Lemma rep_delete p m d : rep p m ->
  match m d with
  | None => pft_delete p d = Some (p, (-1)%Z)
  | Some _ => exists p', pft_delete p d = Some (p', 0%Z) /\ rep p' (fset m d None)
  end.
Proof.
  intros H. destruct (rep_bucket p m d H) as (b & E & Hnd & Hf). unfold pft_delete. rewrite E, Hf.
  destruct (m d) eqn:Em; [|reflexivity]. eexists. split; [reflexivity|].
  eapply rep_set; eauto.
  - apply remove_nodup; auto.
  - intros x Hx. rewrite find_remove by auto. unfold fset. destruct (x =? d) eqn:Ex; auto.
    destruct (rep_bucket p m x H) as (b2 & E2 & _ & Hf2). rewrite Hx in E2. congruence.
  - intros x Hx. unfold fset. destruct (x =? d) eqn:Ex; auto. assert (x = d) by lia. congruence.
Qed.

Lemma rep_modify p m d f : rep p m ->
  exists p', pft_modify p d f = Some p' /\ rep p' (fset m d (option_map f (m d))).
Proof.
  intros H. destruct (rep_bucket p m d H) as (b & E & Hnd & Hf). unfold pft_modify. rewrite E.
  eexists. split; [reflexivity|]. eapply rep_set; eauto.
  - rewrite modify_keys. auto.
  - intros x Hx. rewrite find_modify. unfold fset. destruct (x =? d) eqn:Ex; [congruence|].
    destruct (rep_bucket p m x H) as (b2 & E2 & _ & Hf2). rewrite Hx in E2. congruence.
  - intros x Hx. unfold fset. destruct (x =? d) eqn:Ex; auto. assert (x = d) by lia. congruence.
Qed.

Lemma run_refines ops : forall p m, rep p m -> run p ops = Some (spec_run m ops).
Proof.
  induction ops as [|o ops IH]; intros p m H; [reflexivity|].
  cbn [run spec_run]. destruct o as [d v|d| |d]; cbn [step spec_step].
  - pose proof (rep_insert p m d v H) as K. destruct (m d).
    + rewrite K. rewrite (IH p m H). reflexivity.
    + destruct K as (p' & -> & H'). rewrite (IH _ _ H'). reflexivity.
  - pose proof (rep_delete p m d H) as K. destruct (m d).
    + destruct K as (p' & -> & H'). rewrite (IH _ _ H'). reflexivity.
    + rewrite K. rewrite (IH p m H). reflexivity.
  - rewrite (IH _ _ (rep_flush p m H)). reflexivity.
  - rewrite (rep_lookup p m d H). rewrite (IH p m H). reflexivity.
Qed.

Theorem c24 n h ops : 1 <= n -> n <= 2 ^ 32 ->
  exists p, pft_create n h = Some p /\ run p ops = Some (spec_run fempty ops).
Proof.
  intros H1 H2. destruct (rep_create n h H1) as (p & E & H).
  - etransitivity; [exact H2|]. apply N.pow_le_mono_r; lia.
  - exists p. split; auto. apply run_refines. auto.
Qed.
End P.
