(** Proofs about the congestion avoidance model. *)
From Coq Require Import List NArith ZArith Bool Lia ZifyN ZifyBool.
From Verif Require Import MbEcnModel MbEcnSpec.
Import ListNotations.
Open Scope N_scope.

Lemma w64_small x : x < 2 ^ 64 -> w64 x = x.
Proof. intros. apply N.mod_small. exact H. Qed.

Lemma sub64_small a b : b <= a -> a < 2 ^ 64 -> sub64 a b = a - b.
Proof.
  intros H1 H2. unfold sub64, two64.
  rewrite (N.mod_small b) by lia.
  replace (a + (2 ^ 64 - b)) with ((a - b) + 1 * 2 ^ 64) by lia.
  rewrite N.mod_add by lia. apply N.mod_small. lia.
Qed.

Lemma slot_after_small a b : a < 2 ^ 63 -> b < 2 ^ 63 -> slot_after a b = (b <? a).
Proof.
  intros Ha Hb. unfold slot_after. destruct (N.ltb_spec b a).
  - unfold sub64, two64. rewrite (N.mod_small a) by lia. rewrite N.mod_small by lia. lia.
  - rewrite sub64_small by lia. lia.
Qed.

Lemma decrease_range : forall wbl ece wbc inc, 1 <= wbl -> wbl < 2 ^ 64 -> ece <> 0 ->
  ece <= 8191 -> 1 <= adjust true wbl wbc ece inc <= wbl.
Proof.
  intros wbl ece wbc inc H1 H2 H3 H4. unfold adjust. cbn [negb].
  replace (ece =? 0) with false by lia. cbn [negb].
  assert (E : w64 (wbl * ece) / 2 ^ (CA_SHFT + 8) < wbl).
  { change (2 ^ (CA_SHFT + 8)) with 8192. unfold w64.
    assert (wbl * ece mod two64 <= wbl * ece) by (apply N.mod_le; discriminate).
    assert (wbl * ece <= wbl * 8191) by (apply N.mul_le_mono_l; exact H4).
    apply N.div_lt_upper_bound; [discriminate|]. lia. }
  set (d := w64 (wbl * ece) / 2 ^ (CA_SHFT + 8)) in *. clearbody d.
  rewrite sub64_small by lia. lia.
Qed.

Lemma scale_up_ok p : 1 <= p -> p < 8 ->
  exists f, scale_up 64 p 0 = Some f /\ (f = 1 \/ f = 2 \/ f = 3).
Proof.
  intros H1 H2.
  assert (E : p = 1 \/ p = 2 \/ p = 3 \/ p = 4 \/ p = 5 \/ p = 6 \/ p = 7) by lia.
  destruct E as [->|[->|[->|[->|[->|[->| ->]]]]]]; eexists; split; try reflexivity; auto.
Qed.

Lemma scale_down_gen fuel : forall p k, p < 2 ^ (6 + N.of_nat fuel) ->
  exists f, scale_down fuel p k = Some (k + f) /\ (f = 0 \/ 65 * 2 ^ (f - 1) <= p)
            /\ (64 < p -> 1 <= f).
Proof.
  induction fuel as [|fuel IH]; intros p k H.
  - exists 0. cbn [scale_down]. unfold CA_MAXPS. change (2 ^ (6 + N.of_nat 0)) with 64 in H.
    replace (64 <? p) with false by lia. rewrite N.add_0_r. repeat split; auto. lia.
  - cbn [scale_down]. unfold CA_MAXPS. destruct (N.ltb_spec 64 p) as [L|L].
    + destruct (IH (p / 2) (k + 1)) as (f & E & B & _).
      { apply N.div_lt_upper_bound; [lia|].
        rewrite <- N.pow_succ_r'. replace (N.succ (6 + N.of_nat fuel)) with (6 + N.of_nat (S fuel)) by lia.
        exact H. }
      exists (1 + f). rewrite E. split; [f_equal; lia|]. split; [|lia]. right.
      replace (1 + f - 1) with f by lia.
      destruct B as [-> | B]; [cbn; lia|].
      destruct (N.eq_dec f 0) as [->|Nf]; [cbn; lia|].
      replace f with (N.succ (f - 1)) at 1 by lia. rewrite N.pow_succ_r'.
      pose proof (N.mul_div_le p 2). lia.
    + exists 0. rewrite N.add_0_r. repeat split; auto. lia.
Qed.

Lemma scale_down_ok p : 64 < p -> p < 2 ^ 64 ->
  exists f, scale_down 64 p 0 = Some f /\ 1 <= f /\ 65 * 2 ^ (f - 1) <= p.
Proof.
  intros H1 H2. destruct (scale_down_gen 64 p 0) as (f & E & B & F).
  - eapply N.lt_trans; [exact H2|]. reflexivity.
  - exists f. rewrite E. split; [reflexivity|]. specialize (F H1). split; [exact F|].
    destruct B; [lia|assumption].
Qed.

(** Levels. *)
Definition lvl (m : N) (c : ctx) : Prop := rx_ece c <= 8191 /\ tx_ece c <= m.

Lemma snd_fields c now len c' w : update_snd c now len = Some (c', w) ->
  rx_ece c' = rx_ece c /\ tx_ece c' <= tx_ece c /\ tx_cav c' = tx_cav c.
Proof.
  unfold update_snd, bind.
  destruct (shr now (tx_mul c)); [|discriminate].
  set (ece := if CA_WND <? w64 (tx_ctr c + 1) then 0 else tx_ece c).
  assert (ece <= tx_ece c) by (unfold ece; destruct (_ <? _); lia). clearbody ece.
  intros E.
  repeat match type of E with
  | context [match ?x with _ => _ end] =>
      lazymatch x with
      | context [match _ with _ => _ end] => fail
      | _ => destruct x eqn:?; try discriminate E
      end
  end; injection E as <- <-; cbn; auto.
Qed.

Lemma rcv_level e k : e <= 8191 -> k < 256 -> w16 (w16 (e - e / 2 ^ CA_SHFT) + k) = e - e / 32 + k
  /\ e - e / 32 + k <= 8191.
Proof.
  intros H1 H2. change (2 ^ CA_SHFT) with 32. unfold w16.
  assert (e / 32 <= e) by (apply N.div_le_upper_bound; lia).
  pose proof (N.div_mod e 32). pose proof (N.mod_lt e 32).
  assert (e - e / 32 + k <= 8191) by lia.
  change (2 ^ 16) with 65536. rewrite (N.mod_small (e - e / 32)) by lia. rewrite N.mod_small by lia. auto.
Qed.

Lemma lvl_step m c e c' o : lvl m c -> marks_ok m e -> step c e = Some (c', o) ->
  lvl m c' /\ (forall x, snd o = Some x -> x = rx_ece c').
Proof.
  intros [L1 L2] M E. destruct e as [now len|ecn|ece]; cbn [step marks_ok] in *.
  - destruct (update_snd c now len) as [[c1 w]|] eqn:U; cbn [bind] in E; [|discriminate].
    injection E as <- <-. destruct (snd_fields _ _ _ _ _ U) as (A & B & C).
    split; [split; lia|]. cbn. discriminate.
  - unfold update_rcv in E.
    destruct (N.lor (rx_ece c) ecn =? 0); [injection E as <- <-; split; [split; auto|cbn; discriminate]|].
    destruct (ecn =? 0); [|destruct (rx_ece c =? 0)];
    injection E as <- <-; cbn [rx_ece tx_ece snd lvl]; (split; [split; cbn [rx_ece tx_ece]; auto|intros x X; congruence]).
    + assert (rx_ece c / 4 <= rx_ece c) by (apply N.div_le_upper_bound; lia). lia.
    + lia.
    + destruct (rcv_level _ _ L1 M) as [R H]. rewrite <- R in H. exact H.
  - injection E as <- <-. split; [split; cbn; auto|cbn; discriminate].
Qed.

Lemma lvl_run m : forall es c c', lvl m c -> Forall (marks_ok m) es -> run c es = Some c' -> lvl m c'.
Proof.
  induction es as [|e es IH]; intros c c' L F R; cbn [run] in R.
  - injection R as <-. exact L.
  - inversion F; subst. destruct (step c e) as [[c1 o]|] eqn:S; cbn [bind] in R; [|discriminate].
    destruct (lvl_step _ _ _ _ _ L H1 S) as [L' _]. exact (IH _ _ L' H2 R).
Qed.

(** The paced invariant.  [last] and [ll] are the time and length of the last
    packet. *)
Record inv (c : ctx) (last ll : N) : Prop := mk_inv {
  i_mul : 15 <= tx_mul c <= 58;
  i_inc : tx_inc c = 2 ^ (tx_mul c - 8);
  i_wpc : tx_slot c * 2 ^ tx_mul c + 2048 * tx_wpc c <= last + 8 * 2048 + 2 ^ tx_mul c;
  i_wbc : tx_slot c * 2 ^ tx_mul c + tx_wbc c <= last + ll + 7 * 2 ^ tx_mul c;
  i_in : (tx_wpc c = 0 /\ tx_wbc c = 0) \/ last < (tx_slot c + 1) * 2 ^ tx_mul c;
  i_wbl : tx_wbl c <= 24 * 2 ^ tx_mul c;
  i_last : last < 2 ^ 56;
  i_ll : ll < 2 ^ 16 }.

Lemma pow_le m : 15 <= m <= 58 -> 2 ^ 15 <= 2 ^ m <= 2 ^ 58.
Proof. intros H. split; apply N.pow_le_mono_r; lia. Qed.

Lemma div_bounds a b : b <> 0 -> (a / b) * b <= a < (a / b + 1) * b.
Proof.
  intros H. pose proof (N.mul_div_le a b H). pose proof (N.mul_succ_div_gt a b H). lia.
Qed.

Lemma shr_ok a k : k < 64 -> shr a k = Some (a / 2 ^ k).
Proof. intros. unfold shr. replace (k <? 64) with true by lia. reflexivity. Qed.
Lemma shl_ok a k : k < 64 -> a * 2 ^ k < 2 ^ 64 -> shl a k = Some (a * 2 ^ k).
Proof. intros. unfold shl. replace (k <? 64) with true by lia. rewrite w64_small by assumption. reflexivity. Qed.

(** What an adjustment does to the limit. *)
Lemma adjust_bound cav wbl wbc ece inc M : wbl <= 24 * M -> wbc <= 12 * M -> inc <= M -> M <= 2 ^ 58 ->
  ece <= 8191 -> adjust cav wbl wbc ece inc <= 24 * M.
Proof.
  intros H1 H2 H3 H4 H5. destruct cav.
  - destruct (N.eq_dec ece 0) as [->|Ne].
    + unfold adjust. cbn [negb N.eqb]. rewrite w64_small; lia.
    + destruct (N.eq_dec wbl 0) as [->|Nw].
      * unfold adjust. cbn [negb]. replace (ece =? 0) with false by lia. cbn [negb].
        rewrite N.mul_0_l. vm_compute (w64 0 / 2 ^ (CA_SHFT + 8)). unfold sub64, two64.
        change ((0 + (2 ^ 64 - 0 mod 2 ^ 64)) mod 2 ^ 64) with 0. lia.
      * pose proof (decrease_range wbl ece wbc inc). lia.
  - unfold adjust. cbn [negb]. destruct (N.ltb_spec wbl wbc); [|lia].
    rewrite w64_small; lia.
Qed.

(** Without reported congestion the limit never drops below the increment. *)
Lemma adjust_floor cav wbl wbc inc M : inc <= wbl -> wbl <= 24 * M -> wbc <= 12 * M -> inc <= M -> M <= 2 ^ 58 ->
  inc <= adjust cav wbl wbc 0 inc.
Proof.
  intros H0 H1 H2 H3 H4. unfold adjust. destruct cav; cbn [negb N.eqb].
  - rewrite w64_small; lia.
  - destruct (N.ltb_spec wbl wbc); [|lia]. rewrite w64_small; lia.
Qed.

Lemma fac_lt a b K : 1 <= b -> a * b < K -> a < K.
Proof.
  intros H1 H2. eapply N.le_lt_trans; [|exact H2].
  rewrite <- (N.mul_1_r a) at 1. apply N.mul_le_mono_l. exact H1.
Qed.
Lemma mul_gap s q M : s < q -> (s + 1) * M <= q * M.
Proof. intros. apply N.mul_le_mono_r. lia. Qed.

Definition wait_ok (c : ctx) (now : N) (w : Z) : Prop :=
  w = (if tx_wbl c <? tx_wbc c then (Z.of_N ((tx_slot c + 1) * 2 ^ tx_mul c) - Z.of_N now)%Z else 0%Z)
  /\ ((0 < w)%Z <-> tx_wbl c < tx_wbc c) /\ (0 <= w)%Z.

Lemma wait_lemma c' now : 15 <= tx_mul c' <= 58 -> now < 2 ^ 56 ->
  (tx_wbc c' = 0 \/ now < (tx_slot c' + 1) * 2 ^ tx_mul c') ->
  (tx_slot c' + 1) * 2 ^ tx_mul c' < 2 ^ 63 ->
  exists w,
  (if tx_wbl c' <? tx_wbc c' then
    bind (shl (w64 (tx_slot c' + 1)) (tx_mul c')) (fun e =>
    let w := sub64 e now in
    Some (c', if w <? 2 ^ 63 then Z.of_N w else (Z.of_N w - 2 ^ 64)%Z))
  else Some (c', 0%Z)) = Some (c', w) /\ wait_ok c' now w.
Proof.
  intros Hm Hn Hd Hs. unfold wait_ok. pose proof (pow_le _ Hm) as P. destruct (N.ltb_spec (tx_wbl c') (tx_wbc c')) as [L|L].
  - destruct Hd as [Hd|Hd]; [lia|]. 
    assert (tx_slot c' + 1 < 2 ^ 64).
    { apply (fac_lt _ (2 ^ tx_mul c')); lia. }
    remember (2 ^ tx_mul c') as P2 eqn:EP2.
    rewrite (w64_small (tx_slot c' + 1)) by assumption.
    rewrite shl_ok by (rewrite <- ?EP2; lia). cbn [bind]. cbv zeta. rewrite <- EP2. rewrite sub64_small by lia.
    replace ((tx_slot c' + 1) * P2 - now <? 2 ^ 63) with true by lia.
    eexists. split; [reflexivity|]. split; [lia|]. split; [|lia]. split; lia.
  - exists 0%Z. split; [reflexivity|]. split; [reflexivity|]. split; [|lia]. split; lia.
Qed.

Lemma snd_ok c last ll now len : inv c last ll -> tx_ece c <= 8191 ->
  last + 2048 + ll <= now -> now < 2 ^ 56 -> len < 2 ^ 16 ->
  exists c' w, update_snd c now len = Some (c', w) /\ inv c' now len /\ wait_ok c' now w /\
    (tx_ece c = 0 -> tx_inc c <= tx_wbl c -> tx_inc c' <= tx_wbl c').
Proof.
  intros [Imul Iinc Iwpc Iwbc Iin Iwbl Ilast Ill] Hece Hp Hnow Hlen.
  pose proof (pow_le _ Imul) as PM.
  unfold update_snd. rewrite shr_ok by lia. cbn [bind].
  remember (2 ^ tx_mul c) as M eqn:EM.
  assert (M <> 0) as M0 by lia.
  pose proof (div_bounds now M M0) as Dq. remember (now / M) as q eqn:Eq.
  assert (Hincp : 2 ^ 8 * tx_inc c = M).
  { rewrite Iinc, EM, <- N.pow_add_r. f_equal. lia. }
  assert (Hq : q < 2 ^ 63) by (apply (fac_lt _ M); lia).
  assert (Hs : tx_slot c < 2 ^ 63).
  { apply (fac_lt _ M); lia. }
  rewrite slot_after_small by assumption.
  assert (Bp : 2048 * tx_wpc c < 2 * M + 8 * 2048).
  { destruct Iin as [[-> _]|Iin]; lia. }
  assert (Bb : tx_wbc c <= 10 * M).
  { destruct Iin as [[_ ->]|Iin]; lia. }
  rewrite (w64_small (tx_wpc c + 1)) by lia.
  rewrite (w64_small (tx_wbc c + len)) by lia.
  set (ctr := w64 (tx_ctr c + 1)).
  set (ece := if CA_WND <? ctr then 0 else tx_ece c).
  assert (Hece' : ece <= 8191) by (unfold ece; destruct (_ <? _); lia).
  assert (Hece0 : tx_ece c = 0 -> ece = 0) by (unfold ece; destruct (_ <? _); lia).
  clearbody ece ctr.
  destruct (N.ltb_spec (tx_slot c) q) as [T|T].
  - (* a new slot *)
    pose proof (mul_gap _ _ M T) as Tg.
    set (wbl := adjust (tx_cav c) (tx_wbl c) (tx_wbc c + len) ece (tx_inc c)).
    assert (Hwbl : wbl <= 24 * M) by (apply adjust_bound; lia).
    assert (Hfl : tx_ece c = 0 -> tx_inc c <= tx_wbl c -> tx_inc c <= wbl).
    { intros E0 F0. unfold wbl. rewrite (Hece0 E0). apply adjust_floor with (M := M); lia. }
    clearbody wbl. 
    assert (Hm55 : tx_mul c <= 55).
    { assert (M <= now) by lia. destruct (N.le_gt_cases (tx_mul c) 55) as [|G]; [assumption|].
      assert (2 ^ 56 <= M) by (rewrite EM; apply N.pow_le_mono_r; lia). lia. }
    unfold CA_MINPS, CA_MAXPS.
    destruct (N.ltb_spec (tx_wpc c + 1) 8) as [S|S]; [|destruct (N.ltb_spec 64 (tx_wpc c + 1)) as [G|G]].
    + (* scale up *)
      destruct (scale_up_ok (tx_wpc c + 1)) as (f & -> & Hf); [lia|lia|]. cbn [bind].
      remember (2 ^ f) as F eqn:EF.
      assert (HF : 2 <= F <= 8) by (subst F; destruct Hf as [->|[->| ->]]; cbn; lia).
      rewrite shr_ok by lia. cbn [bind].
      assert (HM55 : M <= 2 ^ 55) by (rewrite EM; apply N.pow_le_mono_r; lia).
      assert (HMF : M * 2 <= M * F <= M * 8) by (split; apply N.mul_le_mono_l; lia).
      assert (HwF : wbl * F <= 24 * (M * F)) by (rewrite N.mul_assoc; apply N.mul_le_mono_r; lia).
      assert (HiF : tx_inc c * F <= M * F) by (apply N.mul_le_mono_r; lia).
      rewrite shl_ok by (rewrite <- ?EF; lia).
      cbn [bind]. rewrite shl_ok by (rewrite <- ?EF; lia). cbn [bind].
      rewrite <- EF.
      assert (HM' : 2 ^ (tx_mul c + f) = M * F) by (rewrite N.pow_add_r, <- EM, <- EF; reflexivity).
      assert (Ds : q / F * (M * F) <= now < (q / F + 1) * (M * F)).
      { rewrite Eq. rewrite N.div_div by lia. apply div_bounds. lia. }
      remember (q / F) as sl eqn:Esl.
      rewrite (w64_small (tx_mul c + f)) by lia.
      assert (Hsl : sl + 1 < 2 ^ 63) by (apply (fac_lt _ (M * F)); lia).
      set (MF := M * F) in *. clearbody MF.
      rewrite (w64_small (sl + 1)) by lia.
      set (carry := sl mod F =? 0). clearbody carry.
      match goal with |- exists c' w, (if tx_wbl ?x <? _ then _ else _) = _ /\ _ => set (C := x) end.
      destruct (wait_lemma C now) as (w & Ew & Ow).
      * unfold C; cbn [tx_mul]; lia.
      * assumption.
      * unfold C; cbn [tx_wbc tx_mul tx_slot]. rewrite HM'. destruct carry; [right; lia|left; reflexivity].
      * unfold C; cbn [tx_wbc tx_mul tx_slot]. rewrite HM'. destruct carry; lia.
      * exists C, w. split; [exact Ew|]. split; [|split; [exact Ow|]].
        -- unfold C. split; cbn [tx_mul tx_inc tx_slot tx_wpc tx_wbc tx_wbl]; rewrite ?HM'.
           ++ lia.
           ++ rewrite Iinc. rewrite EF, <- N.pow_add_r. f_equal. lia.
           ++ destruct carry; lia.
           ++ destruct carry; lia.
           ++ destruct carry; [right; lia|left; auto].
           ++ lia.
           ++ assumption.
           ++ assumption.
        -- unfold C; cbn [tx_inc tx_wbl]. intros A B. specialize (Hfl A B). apply N.mul_le_mono_r. exact Hfl.
    + (* scale down *)
      destruct (scale_down_ok (tx_wpc c + 1)) as (f & -> & Hf1 & Hf2); [lia|lia|]. cbn [bind].
      assert (Hf : f + 15 <= tx_mul c).
      { destruct (N.le_gt_cases (f + 15) (tx_mul c)) as [|G']; [assumption|exfalso].
        assert (A : 2 ^ (tx_mul c - 15) <= 2 ^ (f - 1)) by (apply N.pow_le_mono_r; lia).
        assert (B : M = 2 ^ 15 * 2 ^ (tx_mul c - 15)) by (rewrite EM, <- N.pow_add_r; f_equal; lia).
        assert (1 <= 2 ^ (tx_mul c - 15)).
        { change 1 with (2 ^ 0). apply N.pow_le_mono_r; lia. }
        change (2 ^ 15) with 32768 in B. lia. }
      assert (HM' : M = 2 ^ (tx_mul c - f) * 2 ^ f) by (rewrite EM, <- N.pow_add_r; f_equal; lia).
      remember (2 ^ f) as F eqn:EF. remember (2 ^ (tx_mul c - f)) as M' eqn:EM'.
      assert (HF : 2 <= F) by (subst F; change 2 with (2 ^ 1) at 1; apply N.pow_le_mono_r; lia).
      assert (PM' : 2 ^ 15 <= M') by (subst M'; apply N.pow_le_mono_r; lia).
      assert (QM : q * F * M' = q * M) by (rewrite HM', (N.mul_comm M' F), N.mul_assoc; reflexivity).
      assert (QF : q * F < 2 ^ 63) by (apply (fac_lt _ M'); lia).
      assert (MM' : M' <= M) by (rewrite HM'; rewrite <- (N.mul_1_r M') at 1; apply N.mul_le_mono_l; lia).
      rewrite shl_ok by (lia || (rewrite <- EF; lia)). cbn [bind].
      rewrite !shr_ok by lia. cbn [bind]. rewrite <- EF.
      rewrite (sub64_small (tx_mul c) f) by lia.
      match goal with |- exists c' w, (if tx_wbl ?x <? _ then _ else _) = _ /\ _ => set (C := x) end.
      destruct (wait_lemma C now) as (w & Ew & Ow).
      * unfold C; cbn [tx_mul]; lia.
      * assumption.
      * unfold C; cbn [tx_wbc]. left. reflexivity.
      * unfold C; cbn [tx_wbc tx_mul tx_slot]. rewrite <- EM'. lia.
      * exists C, w. split; [exact Ew|]. split; [|split; [exact Ow|]].
        -- unfold C. split; cbn [tx_mul tx_inc tx_slot tx_wpc tx_wbc tx_wbl]; rewrite <- ?EM'.
           ++ lia.
           ++ rewrite Iinc, EF. replace (tx_mul c - 8) with ((tx_mul c - f - 8) + f) by lia.
              rewrite N.pow_add_r, N.div_mul; [reflexivity|]. apply N.pow_nonzero. lia.
           ++ lia.
           ++ lia.
           ++ left; auto.
           ++ apply N.div_le_upper_bound; [lia|]. rewrite HM' in Hwbl. lia.
           ++ assumption.
           ++ assumption.
        -- unfold C; cbn [tx_inc tx_wbl]. intros A B. specialize (Hfl A B).
           apply N.div_le_mono; lia.
    + match goal with |- exists c' w, (bind (Some ?x) _) = _ /\ _ => set (C := x) end. cbn [bind].
      destruct (wait_lemma C now) as (w & Ew & Ow).
      * unfold C; cbn [tx_mul]; lia.
      * assumption.
      * unfold C; cbn [tx_wbc]. left. reflexivity.
      * unfold C; cbn [tx_wbc tx_mul tx_slot]. rewrite <- EM. lia.
      * exists C, w. split; [exact Ew|]. split; [|split; [exact Ow|]].
        -- unfold C. split; cbn [tx_mul tx_inc tx_slot tx_wpc tx_wbc tx_wbl]; rewrite <- ?EM; auto; lia.
        -- unfold C; cbn [tx_inc tx_wbl]. exact Hfl.
  - match goal with |- exists c' w, (bind (Some ?x) _) = _ /\ _ => set (C := x) end. cbn [bind].
    assert (now < (tx_slot c + 1) * M).
    { eapply N.lt_le_trans; [apply Dq|]. apply N.mul_le_mono_r. lia. }
    destruct (wait_lemma C now) as (w & Ew & Ow).
    + unfold C; cbn [tx_mul]; lia.
    + assumption.
    + unfold C; cbn [tx_wbc tx_slot tx_mul]. right. rewrite <- EM. assumption.
    + unfold C; cbn [tx_wbc tx_mul tx_slot]. rewrite <- EM. lia.
    + exists C, w. split; [exact Ew|]. split; [|split; [exact Ow|]].
      * unfold C. split; cbn [tx_mul tx_inc tx_slot tx_wpc tx_wbc tx_wbl]; rewrite <- ?EM; auto; try lia.
      * unfold C; cbn [tx_inc tx_wbl]. auto.
Qed.

Lemma inv_create now : now < 2 ^ 56 -> inv (ctx_create now) now 0.
Proof.
  intros H. unfold ctx_create, CA_SLOT, CA_INC, CA_IWL.
  pose proof (N.mul_div_le now (2 ^ 24)).
  split; cbn [tx_mul tx_inc tx_slot tx_wpc tx_wbc tx_wbl]; try lia; auto.
Qed.

Definition inv' (c : ctx) (t : N) : Prop :=
  exists last ll, inv c last ll /\ last + 2048 + ll <= t.


Lemma inv_rcv c ecn last ll c' b o : inv c last ll -> update_rcv c ecn = (c', b, o) ->
  inv c' last ll /\ tx_inc c' = tx_inc c /\ tx_wbl c' = tx_wbl c.
Proof.
  intros [A B C D E F G H] U. unfold update_rcv in U.
  destruct (N.lor _ _ =? 0); [injection U as <- <- <-; split; [constructor; assumption|split; reflexivity]|].
  destruct (ecn =? 0); [|destruct (rx_ece c =? 0)]; injection U as <- <- <-;
  (split; [constructor; assumption|split; reflexivity]).
Qed.

Lemma inv_ece c ece last ll : inv c last ll -> inv (update_ece c ece) last ll.
Proof. intros [A B C D E F G H]. constructor; assumption. Qed.

(** One event of a paced history. *)
Lemma inv_step m c t e r : m <= 8191 -> inv' c t -> lvl m c -> marks_ok m e -> paced t (e :: r) ->
  exists c' o t', step c e = Some (c', o) /\ inv' c' t' /\ paced t' r /\ (0 <= fst o)%Z /\
    (m = 0 -> tx_inc c <= tx_wbl c -> tx_inc c' <= tx_wbl c').
Proof.
  intros Hm (last & ll & I & T) [L1 L2] K P. destruct e as [now len|ecn|ece]; cbn [paced] in P; cbn [step].
  - destruct P as (P1 & P2 & P3 & P4).
    destruct (snd_ok c last ll now len I) as (c' & w & E & I' & W & N0); try lia.
    rewrite E. cbn [bind]. exists c', (w, None), (now + 2048 + len). split; [reflexivity|].
    split; [exists now, len; split; [exact I'|lia]|]. split; [exact P4|].
    split; [apply W|]. intros -> X. apply N0; lia.
  - destruct (update_rcv c ecn) as [[c' b] o] eqn:U.
    destruct (inv_rcv _ _ _ _ _ _ _ I U) as (I' & E1 & E2).
    exists c', (0%Z, o), t. split; [reflexivity|]. split; [exists last, ll; auto|]. split; [exact P|].
    split; [cbn; lia|]. rewrite E1, E2. auto.
  - exists (update_ece c ece), (0%Z, None), t. split; [reflexivity|].
    split; [exists last, ll; split; [apply inv_ece; exact I|exact T]|]. split; [exact P|].
    split; [cbn; lia|]. cbn. auto.
Qed.

Lemma inv_run m : m <= 8191 -> forall es c t, inv' c t -> lvl m c -> Forall (marks_ok m) es -> paced t es ->
  exists c' t', run c es = Some c' /\ inv' c' t' /\ (m = 0 -> tx_inc c <= tx_wbl c -> tx_inc c' <= tx_wbl c').
Proof.
  intros Hm. induction es as [|e es IH]; intros c t I L F P.
  - exists c, t. split; [reflexivity|]. auto.
  - inversion F; subst.
    destruct (inv_step m c t e es Hm I L H1 P) as (c1 & o & t1 & S & I1 & P1 & _ & N1).
    destruct (lvl_step _ _ _ _ _ L H1 S) as [L' _].
    destruct (IH c1 t1 I1 L' H2 P1) as (c' & t' & R & I' & N').
    exists c', t'. cbn [run]. rewrite S. cbn [bind]. split; [exact R|]. split; [exact I'|]. auto.
Qed.
