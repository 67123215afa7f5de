From Coq Require Import List NArith ZArith Bool Lia ZifyBool ZifyNat ZifyN.
From Verif Require Import RdrbuffModel RdrbuffSpec.
Import ListNotations.
Open Scope N_scope.

Section P.
  Variables LOG BS HDR : N.
  Hypothesis HLOG : 1 <= LOG.
  Hypothesis HBS : 1 <= BS.
  Notation S := (SIZE LOG).
  Notation nb := (n_blocks BS HDR).

  Lemma S2 : 2 <= S.
  Proof. unfold SIZE. change 2 with (2 ^ 1) at 1. apply N.pow_le_mono_r; lia. Qed.

  Lemma land_mod a : N.land a (S - 1) = a mod S.
  Proof. unfold SIZE. rewrite <- N.land_ones, N.ones_equiv, N.sub_1_r. reflexivity. Qed.

  Lemma nb_pos len : 1 <= nb len.
  Proof.
    clear HLOG LOG. unfold n_blocks, OVERHEAD. apply N.div_le_lower_bound; lia.
  Qed.
  Lemma nb_fits len : OVERHEAD + len + HDR <= nb len * BS.
  Proof.
    unfold n_blocks. pose proof (N.div_mod' (OVERHEAD + len + HDR + BS - 1) BS).
    pose proof (N.mod_bound_pos (OVERHEAD + len + HDR + BS - 1) BS). unfold OVERHEAD in *. nia.
  Qed.

  Lemma mod_inj_gen Z T a b : a < Z -> b < Z -> (T + a) mod Z = (T + b) mod Z -> a = b.
  Proof.
    clear. intros Ha Hb E.
    pose proof (N.div_mod' (T + a) Z) as E1. pose proof (N.div_mod' (T + b) Z) as E2. rewrite E in E1.
    set (q1 := (T + a) / Z) in *. set (q2 := (T + b) / Z) in *. set (r := (T + b) mod Z) in *.
    clearbody q1 q2 r. clear E.
    destruct (N.lt_trichotomy q1 q2) as [C|[C|C]].
    - pose proof (N.mul_le_mono_l (N.succ q1) q2 Z ltac:(lia)) as M. rewrite N.mul_succ_r in M. lia.
    - subst. lia.
    - pose proof (N.mul_le_mono_l (N.succ q2) q1 Z ltac:(lia)) as M. rewrite N.mul_succ_r in M. lia.
  Qed.
  Lemma mod_inj T a b : a < S -> b < S -> (T + a) mod S = (T + b) mod S -> a = b.
  Proof. apply mod_inj_gen. Qed.

  Fixpoint seg_ok (T o : N) (segs : list (N * N)) : Prop :=
    match segs with
    | [] => True
    | (st, n) :: r => st = (T + o) mod S /\ 0 < n /\ st + n <= S /\ seg_ok T (o + n) r
    end.
  Fixpoint sumn (segs : list (N * N)) : N := match segs with [] => 0 | (_, n) :: r => n + sumn r end.

  Lemma seg_ok_app T a : forall o b, seg_ok T o (a ++ b) <-> seg_ok T o a /\ seg_ok T (o + sumn a) b.
  Proof.
    induction a as [|[st n] a IH]; intros o b; cbn [app seg_ok sumn].
    - rewrite N.add_0_r. tauto.
    - rewrite IH. replace (o + (n + sumn a)) with (o + n + sumn a) by lia. tauto.
  Qed.
  Lemma sumn_app a b : sumn (a ++ b) = sumn a + sumn b.
  Proof. induction a as [|[st n] a IH]; cbn [app sumn]; lia. Qed.

  Lemma add_mod_small x k : x mod S + k < S -> (x + k) mod S = x mod S + k.
  Proof.
    pose proof S2. intros H0. rewrite <- (N.mod_small _ _ H0). rewrite N.add_mod_idemp_l by lia. reflexivity.
  Qed.

  Lemma blk_off T : forall segs o st n b, seg_ok T o segs -> In (st, n) segs -> st <= b -> b < st + n ->
    exists j, o <= j /\ j < o + sumn segs /\ b = (T + j) mod S.
  Proof.
    induction segs as [|[s0 n0] r IH]; intros o st n b K I B1 B2; [destruct I|].
    cbn [seg_ok sumn] in *. destruct K as (K1 & K2 & K3 & K4). destruct I as [E|I].
    - injection E as -> ->. exists (o + (b - st)). split; [lia|]. split; [lia|].
      replace (T + (o + (b - st))) with (T + o + (b - st)) by lia.
      rewrite add_mod_small; lia.
    - destruct (IH _ _ _ _ K4 I B1 B2) as (j & J1 & J2 & J3). exists j. repeat split; auto; lia.
  Qed.

  Lemma seg_disj T : forall segs o x y b, seg_ok T o segs -> o + sumn segs <= S -> In x segs -> In y segs ->
    fst x <= b -> b < fst x + snd x -> fst y <= b -> b < fst y + snd y -> x = y.
  Proof.
    induction segs as [|[s0 n0] r IH]; intros o x y b K L X Y X1 X2 Y1 Y2; [destruct X|].
    cbn [seg_ok sumn] in *. destruct K as (K1 & K2 & K3 & K4).
    assert (Hd : forall z, In z r -> fst z <= b -> b < fst z + snd z -> s0 <= b -> b < s0 + n0 -> False).
    { intros [zs zn] Z Z1 Z2 B1 B2; cbn [fst snd] in *.
      destruct (blk_off T r (o + n0) zs zn b K4 Z Z1 Z2) as (j & J1 & J2 & J3).
      assert (b = (T + (o + (b - s0))) mod S) as E.
      { replace (T + (o + (b - s0))) with (T + o + (b - s0)) by lia. rewrite add_mod_small; lia. }
      assert (j = o + (b - s0)); [|lia]. clear IH. apply (mod_inj T); [lia|lia|congruence]. }
    destruct X as [<-|X], Y as [<-|Y]; auto.
    - exfalso; eapply Hd; eauto.
    - exfalso; eapply Hd; eauto.
    - eapply IH; eauto; lia.
  Qed.

  Lemma seg_n_pos T : forall segs o st n, seg_ok T o segs -> In (st, n) segs -> 0 < n /\ st + n <= S.
  Proof.
    induction segs as [|[s0 n0] r IH]; intros o st n K I; [destruct I|]. cbn [seg_ok] in K.
    destruct K as (K1 & K2 & K3 & K4). destruct I as [E|I]; [injection E as -> ->; auto|eauto].
  Qed.

  Lemma seg_start_inj T segs st n n' : seg_ok T 0 segs -> sumn segs <= S -> In (st, n) segs -> In (st, n') segs -> n = n'.
  Proof.
    intros K L A B. pose proof (seg_n_pos _ _ _ _ _ K A). pose proof (seg_n_pos _ _ _ _ _ K B).
    assert ((st, n) = (st, n')) by (apply (seg_disj T segs 0 _ _ st); auto; cbn [fst snd]; lia). congruence.
  Qed.

  Lemma head_not_start T segs st n : seg_ok T 0 segs -> sumn segs < S -> In (st, n) segs ->
    (T + sumn segs) mod S <> st.
  Proof.
    intros K L I E. pose proof (seg_n_pos _ _ _ _ _ K I).
    destruct (blk_off T segs 0 st n st K I) as (j & J1 & J2 & J3); [lia|lia|].
    assert (sumn segs = j); [|lia]. apply (mod_inj T); lia.
  Qed.

  Lemma seg_len T : forall segs o, seg_ok T o segs -> N.of_nat (length segs) <= sumn segs.
  Proof.
    induction segs as [|[st n] r IH]; intros o K; cbn [length sumn seg_ok] in *; [lia|].
    destruct K as (_ & K2 & _ & K4). specialize (IH _ K4). lia.
  Qed.

  Lemma seg_rebase T n : forall segs o, seg_ok T (n + o) segs -> seg_ok ((T + n) mod S) o segs.
  Proof.
    pose proof S2.
    induction segs as [|[st m] r IH]; intros o K; cbn [seg_ok] in *; auto.
    destruct K as (K1 & K2 & K3 & K4). rewrite N.add_mod_idemp_l by lia.
    replace (T + n + o) with (T + (n + o)) by lia. repeat split; auto. apply IH.
    replace (n + (o + m)) with (n + o + m) by lia. exact K4.
  Qed.

  Definition good_pkt (s : rdrb) (segs : list (N * N)) (p : pkt) : Prop :=
    In (p_idx p, nb (p_len p)) segs /\ refs (hdrs s (p_idx p)) = p_refs p /\ 1 <= p_refs p /\
    idx (hdrs s (p_idx p)) = p_idx p /\
    (p_owned p = true -> size (hdrs s (p_idx p)) = OVERHEAD + p_len p).

  Record Inv (s : rdrb) (segs : list (N * N)) (live : list pkt) : Prop := {
    i_tail : tail s < S;
    i_seg  : seg_ok (tail s) 0 segs;
    i_head : head s = (tail s + sumn segs) mod S;
    i_sum  : sumn segs + 2 <= S;
    i_blk  : forall st n, In (st, n) segs -> blocks (hdrs s st) = n;
    i_live : forall p, In p live -> good_pkt s segs p;
    i_nodup : NoDup (map p_idx live);
    i_dead : forall st n, In (st, n) segs -> ~ In st (map p_idx live) -> refs (hdrs s st) = 0
  }.

  Lemma Inv_ext s s' segs live : Inv s segs live -> head s' = head s -> tail s' = tail s ->
    (forall st n, In (st, n) segs -> hdrs s' st = hdrs s st) -> Inv s' segs live.
  Proof.
    intros [A B C D E F G H] Hh Ht Hx. split; rewrite ?Hh, ?Ht; auto.
    - intros st n I. rewrite (Hx _ _ I). auto.
    - intros p I. destruct (F p I) as (F1 & F2 & F3 & F4 & F5). unfold good_pkt. rewrite !(Hx _ _ F1). auto.
    - intros st n I J. rewrite (Hx _ _ I). eauto.
  Qed.

  Lemma inv_head_fresh s segs live st n : Inv s segs live -> In (st, n) segs -> st <> head s.
  Proof.
    intros I J E. apply (head_not_start (tail s) segs st n); auto; try apply I.
    - pose proof (i_sum _ _ _ I). lia.
    - rewrite <- (i_head _ _ _ I). auto.
  Qed.

  (** Same state but for the header at head. *)
  Definition sbh (s s' : rdrb) : Prop :=
    head s' = head s /\ tail s' = tail s /\ forall j, j <> head s -> hdrs s' j = hdrs s j.
  Lemma sbh_inv s s' segs live : Inv s segs live -> sbh s s' -> Inv s' segs live.
  Proof.
    intros I (A & B & C). apply (Inv_ext s); auto. intros st n J. apply C. eapply inv_head_fresh; eauto.
  Qed.
  Lemma sbh_refl s : sbh s s. Proof. repeat split. Qed.
  Lemma sbh_trans a b c : sbh a b -> sbh b c -> sbh a c.
  Proof.
    intros (A & B & C) (D & E & F). repeat split; try congruence. intros j J. rewrite F by congruence. auto.
  Qed.
  Lemma sbh_upd f s : sbh s (upd_head_hdr f s).
  Proof.
    repeat split; cbn [upd_head_hdr upd_hdr hdrs]. intros j J. destruct (N.eqb_spec j (head s)); congruence.
  Qed.
  Lemma sbh_all fs : Forall (fun f => forall s, sbh s (f s)) fs -> forall s, sbh s (apply_all fs s).
  Proof.
    induction 1 as [|f fs Hf _ IH]; intros s; cbn [apply_all fold_left]; [apply sbh_refl|].
    eapply sbh_trans; [apply Hf|apply IH].
  Qed.

  Lemma used_spec s segs live : Inv s segs live -> used LOG s = sumn segs + 1.
  Proof.
    intros I. pose proof S2. pose proof (i_tail _ _ _ I). pose proof (i_sum _ _ _ I).
    unfold used. rewrite land_mod, (i_head _ _ _ I).
    pose proof (N.mod_bound_pos (tail s + sumn segs) S).
    replace ((tail s + sumn segs) mod S + S - tail s + 1) with ((tail s + sumn segs) mod S + (S - tail s + 1)) by lia.
    rewrite N.add_mod_idemp_l by lia.
    replace (tail s + sumn segs + (S - tail s + 1)) with (sumn segs + 1 + 1 * S) by lia.
    rewrite N.mod_add by lia. apply N.mod_small. lia.
  Qed.

  Lemma head_lt s segs live : Inv s segs live -> head s < S.
  Proof. intros I. pose proof S2. rewrite (i_head _ _ _ I). apply N.mod_bound_pos; lia. Qed.

  Lemma empty_iff s segs live : Inv s segs live -> (empty s = true <-> segs = []).
  Proof.
    intros I. unfold empty. pose proof (i_tail _ _ _ I). pose proof (i_sum _ _ _ I).
    split; intros H1.
    - apply N.eqb_eq in H1. rewrite (i_head _ _ _ I) in H1.
      assert (0 = sumn segs). { apply (mod_inj (tail s)); try lia. rewrite N.add_0_r, N.mod_small by lia. auto. }
      destruct segs as [|[st n] r]; auto. pose proof (i_seg _ _ _ I) as (_ & P & _). cbn [sumn] in *. lia.
    - subst. apply N.eqb_eq. rewrite (i_head _ _ _ I). cbn [sumn]. rewrite N.add_0_r, N.mod_small; auto.
  Qed.

  Lemma pop_inv s st n r live : Inv s ((st, n) :: r) live -> refs (hdrs s (tail s)) = 0 ->
    Inv (set_tail ((tail s + blocks (hdrs s (tail s))) mod S) s) r live /\ st = tail s.
  Proof.
    intros I Z. pose proof S2. destruct I as [A B C D E F G H0]. cbn [seg_ok sumn] in *.
    destruct B as (B1 & B2 & B3 & B4). rewrite N.add_0_r, N.mod_small in B1 by auto. subst st.
    rewrite (E (tail s) n) by (left; auto). split; auto. split; cbn [set_tail hdrs head tail].
    - apply N.mod_bound_pos; lia.
    - apply seg_rebase. rewrite N.add_0_r. rewrite N.add_0_l in B4. exact B4.
    - rewrite C. rewrite N.add_mod_idemp_l by lia. f_equal. lia.
    - lia.
    - intros; apply E; right; auto.
    - intros p I. destruct (F p I) as (F1 & F2 & F3 & F4 & F5). unfold good_pkt. cbn [set_tail hdrs].
      repeat split; auto. destruct F1 as [F1|F1]; auto. injection F1 as F1 _. rewrite <- F1, Z in F2. lia.
    - auto.
    - intros; eapply H0; eauto. right; eauto.
  Qed.

  Definition clean (s : rdrb) : Prop := head s = tail s \/ refs (hdrs s (tail s)) <> 0.

  Lemma gc_inv : forall fuel segs s live, Inv s segs live -> (length segs <= fuel)%nat ->
    exists s' segs', gc LOG fuel s = Some s' /\ Inv s' segs' live /\ clean s' /\ hdrs s' = hdrs s.
  Proof.
    induction fuel as [|f IH]; intros segs s live I L; cbn [gc].
    - destruct segs; [|cbn in L; lia]. pose proof (proj2 (empty_iff _ _ _ I) eq_refl) as E. rewrite E. cbn [negb andb].
      exists s, []. split; [reflexivity|]. split; [exact I|]. split; [left|reflexivity]. unfold empty in E. apply N.eqb_eq in E. auto.
    - destruct (empty s) eqn:E; cbn [negb andb].
      + exists s, segs. split; [reflexivity|]. split; [exact I|]. split; [left|reflexivity]. unfold empty in E. apply N.eqb_eq in E. auto.
      + destruct (N.eqb_spec (refs (hdrs s (tail s))) 0) as [Z|Z].
        * destruct segs as [|[st n] r]; [rewrite (proj2 (empty_iff _ _ _ I) eq_refl) in E; discriminate|].
          destruct (pop_inv _ _ _ _ _ I Z) as (I' & _). rewrite land_mod.
          destruct (IH _ _ _ I') as (s' & segs' & A & B & C & D); [cbn in L; lia|].
          exists s', segs'. auto.
        * exists s, segs. split; [reflexivity|]. split; [exact I|]. split; [right; auto|reflexivity].
  Qed.

  Lemma gc_upto_inv : forall fuel segs s live, Inv s segs live ->
    exists segs', Inv (gc_upto LOG fuel s) segs' live.
  Proof.
    induction fuel as [|f IH]; intros segs s live I; cbn [gc_upto]; eauto.
    destruct (empty s) eqn:E; cbn [negb andb]; eauto.
    destruct (N.eqb_spec (refs (hdrs s (tail s))) 0) as [Z|Z]; eauto.
    destruct segs as [|[st n] r]; [rewrite (proj2 (empty_iff _ _ _ I) eq_refl) in E; discriminate|].
    destruct (pop_inv _ _ _ _ _ I Z) as (I' & _). rewrite land_mod. eauto.
  Qed.

  Lemma collect_inv segs s live : Inv s segs live ->
    exists s' segs', garbage_collect LOG s = Some s' /\ Inv s' segs' live /\ clean s' /\ hdrs s' = hdrs s.
  Proof.
    intros I. apply (gc_inv _ segs); auto. pose proof (seg_len _ _ _ (i_seg _ _ _ I)). pose proof (i_sum _ _ _ I). lia.
  Qed.

  Lemma sanitize_inv segs s live : Inv s segs live ->
    exists s' segs', sanitize LOG s = Some s' /\ Inv s' segs' live /\ clean s'.
  Proof.
    intros I. unfold sanitize.
    destruct (collect_inv segs (upd_head_hdr (fun h => set_refs h ((refs h + (2 ^ 64 - 1)) mod 2 ^ 64)) s) live)
      as (s' & segs' & A & B & C & _).
    - eapply sbh_inv; [exact I|apply sbh_upd].
    - eauto.
  Qed.

  (** *** Allocation *)
  Definition hh6 (pad : N) : list (rdrb -> rdrb) :=
    [upd_head_hdr (fun h => set_size h 0);
     upd_head_hdr (fun h => set_blocks h pad);
     upd_head_hdr (fun h => set_refs h 0);
     upd_head_hdr (fun h => set_du_head h 0);
     upd_head_hdr (fun h => set_du_tail h 0);
     (fun s => upd_head_hdr (fun h => set_idx h (head s)) s)].
  Definition hh3 (n : N) : list (rdrb -> rdrb) :=
    [upd_head_hdr (fun h => set_refs h 1);
     (fun s => upd_head_hdr (fun h => set_idx h (head s)) s);
     upd_head_hdr (fun h => set_blocks h n)].
  Lemma hh6_ok pad : Forall (fun f => forall s, sbh s (f s)) (hh6 pad).
  Proof. unfold hh6, hh3. repeat (apply Forall_cons; [intros s; apply sbh_upd|]). apply Forall_nil. Qed.
  Lemma hh3_ok pad : Forall (fun f => forall s, sbh s (f s)) (hh3 pad).
  Proof. unfold hh6, hh3. repeat (apply Forall_cons; [intros s; apply sbh_upd|]). apply Forall_nil. Qed.
  Lemma Forall_firstn' {A} (P : A -> Prop) k l : Forall P l -> Forall P (firstn k l).
  Proof.
    intros H. revert k. induction H as [|a l Ha Hl IH]; intros [|k]; cbn [firstn]; constructor; auto.
  Qed.

  Definition adv (n : N) (s : rdrb) : rdrb := set_head (N.land (head s + n) (S - 1)) s.
  Lemma commit_effects_eq n pad : commit_effects LOG n pad =
    (if pad =? 0 then [] else hh6 pad ++ [set_head 0]) ++ hh3 n ++ [adv n].
  Proof. unfold commit_effects. destruct (pad =? 0); reflexivity. Qed.

  Lemma apply_all_app a b s : apply_all (a ++ b) s = apply_all b (apply_all a s).
  Proof. unfold apply_all. apply fold_left_app. Qed.

  (** The padding segment. *)
  Lemma pad_inv s segs live pad : Inv s segs live -> 0 < pad -> head s + pad = S -> sumn segs + pad + 2 <= S ->
    Inv (apply_all (hh6 pad ++ [set_head 0]) s) (segs ++ [(head s, pad)]) live.
  Proof.
    intros I Hp Hh Hs. pose proof S2. rewrite apply_all_app.
    pose proof (sbh_all _ (hh6_ok pad) s) as SB. pose proof (sbh_inv _ _ _ _ I SB) as I6.
    set (s6 := apply_all (hh6 pad) s) in *.
    assert (HB : blocks (hdrs s6 (head s)) = pad /\ refs (hdrs s6 (head s)) = 0).
    { unfold s6, hh6, apply_all; cbn [fold_left upd_head_hdr upd_hdr hdrs head tail].
      rewrite !N.eqb_refl. cbn [set_size set_blocks set_refs set_du_head set_du_tail set_idx blocks refs]. auto. }
    destruct SB as (Eh & Et & _). cbn [apply_all fold_left].
    destruct I6 as [A B C D E F G K].
    split; cbn [set_head hdrs head tail].
    - auto.
    - apply seg_ok_app. split; auto. cbn [seg_ok]. rewrite N.add_0_l. split; [congruence|]. split; [auto|]. split; [lia|auto].
    - rewrite sumn_app. cbn [sumn]. rewrite N.add_0_r.
      replace (tail s6 + (sumn segs + pad)) with (tail s6 + sumn segs + pad) by lia.
      rewrite <- N.add_mod_idemp_l, <- C by lia. rewrite Eh, Hh. symmetry. apply N.mod_same. lia.
    - rewrite sumn_app. cbn [sumn]. lia.
    - intros st n J. apply in_app_or in J. destruct J as [J|[J|[]]]; eauto. injection J as <- <-. tauto.
    - intros p J. destruct (F p J) as (F1 & F2 & F3 & F4 & F5). unfold good_pkt. cbn [set_head hdrs].
      repeat split; auto. apply in_or_app; auto.
    - auto.
    - intros st n J J2. apply in_app_or in J. destruct J as [J|[J|[]]]; eauto. injection J as <- <-. tauto.
  Qed.

  (** The packet's segment. *)
  Lemma packet_inv s segs live len : Inv s segs live -> head s + nb len <= S -> sumn segs + nb len + 2 <= S ->
    Inv (apply_all (hh3 (nb len) ++ [adv (nb len)]) s) (segs ++ [(head s, nb len)])
        (mk_pkt (head s) len 1 false :: live).
  Proof.
    intros I Hh Hs. pose proof S2. rewrite apply_all_app.
    pose proof (sbh_all _ (hh3_ok (nb len)) s) as SB. pose proof (sbh_inv _ _ _ _ I SB) as I3.
    set (s3 := apply_all (hh3 (nb len)) s) in *.
    assert (HB : blocks (hdrs s3 (head s)) = nb len /\ refs (hdrs s3 (head s)) = 1 /\ idx (hdrs s3 (head s)) = head s).
    { unfold s3, hh3, apply_all; cbn [fold_left upd_head_hdr upd_hdr hdrs head tail].
      rewrite !N.eqb_refl. cbn [set_size set_blocks set_refs set_du_head set_du_tail set_idx blocks refs idx]. auto. }
    destruct SB as (Eh & Et & _). cbn [apply_all fold_left].
    pose proof (nb_pos len) as NP.
    assert (Fr : forall st n, In (st, n) segs -> st <> head s).
    { intros st n J. rewrite <- Eh. eapply inv_head_fresh; eauto. }
    destruct I3 as [A B C D E F G K].
    unfold adv. rewrite land_mod. split; cbn [set_head hdrs head tail].
    - auto.
    - apply seg_ok_app. split; auto. cbn [seg_ok]. rewrite N.add_0_l. split; [congruence|]. split; [lia|]. split; [lia|auto].
    - rewrite sumn_app. cbn [sumn]. rewrite N.add_0_r.
      replace (tail s3 + (sumn segs + nb len)) with (tail s3 + sumn segs + nb len) by lia.
      rewrite <- (N.add_mod_idemp_l (tail s3 + sumn segs)), <- C by lia. reflexivity.
    - rewrite sumn_app. cbn [sumn]. lia.
    - intros st n J. apply in_app_or in J. destruct J as [J|[J|[]]]; eauto. injection J as <- <-. tauto.
    - intros p [<-|J].
      + unfold good_pkt. cbn [set_head hdrs p_idx p_len p_refs p_owned]. destruct HB as (H1 & H2 & H3).
        repeat split; auto; try lia; try discriminate. apply in_or_app. right. left. auto.
      + destruct (F p J) as (F1 & F2 & F3 & F4 & F5). unfold good_pkt. cbn [set_head hdrs].
        repeat split; auto. apply in_or_app; auto.
    - cbn [map p_idx]. constructor; auto. intros J. apply in_map_iff in J. destruct J as (p & Ep & J).
      destruct (F p J) as (F1 & _). rewrite Ep in F1. apply (Fr _ _ F1). auto.
    - intros st n J J2. cbn [map p_idx In] in J2. apply in_app_or in J. destruct J as [J|[J|[]]].
      + apply (K _ _ J). tauto.
      + injection J as <- <-. tauto.
  Qed.

  Definition alloc_ready (s : rdrb) (len : N) : Prop :=
    free LOG s (nb len + pad_needed LOG s (nb len)) = true.

  Lemma ready_spec s segs live len : Inv s segs live -> alloc_ready s len ->
    let pad := pad_needed LOG s (nb len) in
    sumn segs + pad + nb len + 2 <= S /\
    ((pad = 0 /\ head s + nb len <= S) \/ (0 < pad /\ head s + pad = S)).
  Proof.
    intros I R. unfold alloc_ready, free in R. rewrite (used_spec _ _ _ I) in R. cbv zeta.
    pose proof (head_lt _ _ _ I). unfold pad_needed in *. destruct (N.ltb_spec S (nb len + head s)); lia.
  Qed.

  Lemma commit_inv s segs live len : Inv s segs live -> alloc_ready s len ->
    let pad := pad_needed LOG s (nb len) in
    exists segs', Inv (apply_all (commit_effects LOG (nb len) pad) s) segs'
                      (mk_pkt (packet_pos s pad) len 1 false :: live).
  Proof.
    intros I R pad. destruct (ready_spec _ _ _ _ I R) as (R1 & R2). fold pad in R1, R2.
    rewrite commit_effects_eq, apply_all_app. unfold packet_pos.
    destruct R2 as [(Z & Hh)|(P & Hh)].
    - rewrite Z. cbn [N.eqb]. eexists. cbn [apply_all fold_left]. apply (packet_inv s segs live len); auto; lia.
    - destruct (N.eqb_spec pad 0) as [E|_]; [lia|].
      pose proof (pad_inv s segs live pad I P Hh) as I1. specialize (I1 ltac:(lia)).
      set (s1 := apply_all (hh6 pad ++ [set_head 0]) s) in *.
      assert (E0 : head s1 = 0) by (unfold s1; rewrite apply_all_app; reflexivity).
      pose proof (packet_inv s1 _ live len I1) as I2. rewrite E0 in I2. rewrite sumn_app in I2. cbn [sumn] in I2.
      eexists. apply I2; lia.
  Qed.

  Lemma owner_inv s segs live i len b : Inv s segs (mk_pkt i len 1 b :: live) ->
    Inv (owner_stores i len s) segs (mk_pkt i len 1 true :: live).
  Proof.
    intros [A B C D E F G K]. split; unfold owner_stores; cbn [upd_hdr hdrs head tail map p_idx] in *; auto.
    - intros st n J. destruct (st =? i); cbn [set_size set_du_head set_du_tail blocks]; auto.
    - intros p [<-|J].
      + destruct (F _ (or_introl eq_refl)) as (F1 & F2 & F3 & F4 & F5). unfold good_pkt.
        cbn [p_idx p_len p_refs p_owned upd_hdr hdrs] in *. rewrite N.eqb_refl.
        cbn [set_size set_du_head set_du_tail size refs idx]. auto.
      + destruct (F _ (or_intror J)) as (F1 & F2 & F3 & F4 & F5). unfold good_pkt. cbn [upd_hdr hdrs].
        assert (p_idx p <> i).
        { inversion G as [|? ? G1 G2]; subst. intros Ex. apply G1. rewrite <- Ex. apply in_map. auto. }
        destruct (N.eqb_spec (p_idx p) i); [lia|]. auto.
    - intros st n J J2. specialize (K st n J J2). destruct (st =? i); cbn [set_size set_du_head set_du_tail refs]; auto.
  Qed.

  Lemma alloc_inv s segs live len s' i : Inv s segs live -> alloc LOG BS HDR s len = (s', Some i) ->
    exists segs', Inv s' segs' (mk_pkt i len 1 true :: live).
  Proof.
    intros I E. unfold alloc in E. destruct (free LOG s (nb len + pad_needed LOG s (nb len))) eqn:R; [|discriminate].
    unfold commit in E. injection E as <- <-.
    destruct (commit_inv s segs live len I R) as (segs' & I'). exists segs'. eapply owner_inv; eauto.
  Qed.
  Lemma alloc_fail s len s' : alloc LOG BS HDR s len = (s', None) -> s' = s.
  Proof.
    unfold alloc. intros E. destruct (free LOG s (nb len + pad_needed LOG s (nb len))); [discriminate E|congruence].
  Qed.

  (** *** Removal *)
  Lemma drop_in i l p : In p (drop i l) <-> In p l /\ p_idx p <> i.
  Proof. unfold drop. rewrite filter_In. destruct (N.eqb_spec (p_idx p) i); cbn [negb]; intuition congruence. Qed.
  Lemma drop_map i l : map p_idx (drop i l) = filter (fun j => negb (j =? i)) (map p_idx l).
  Proof. unfold drop. induction l as [|p l IH]; cbn [map filter]; auto. destruct (p_idx p =? i); cbn [negb map]; congruence. Qed.

  Lemma release_inv s segs live p : Inv s segs live -> In p live ->
    Inv (upd_hdr (p_idx p) (fun h => set_refs h 0) s) segs (drop (p_idx p) live).
  Proof.
    intros [A B C D E F G K] Hp. split; cbn [upd_hdr hdrs head tail]; auto.
    - intros st n J. destruct (st =? p_idx p); cbn [set_refs blocks]; auto.
    - intros q J. apply drop_in in J. destruct J as [J J2].
      destruct (F q J) as (F1 & F2 & F3 & F4 & F5). unfold good_pkt. cbn [upd_hdr hdrs].
      destruct (N.eqb_spec (p_idx q) (p_idx p)); [congruence|]. auto.
    - rewrite drop_map. apply NoDup_filter. auto.
    - intros st n J J2. destruct (N.eqb_spec st (p_idx p)) as [->|N]; cbn [set_refs refs]; auto.
      apply (K st n J). intros J3. apply J2. rewrite drop_map. apply filter_In. split; auto.
      destruct (N.eqb_spec st (p_idx p)); auto.
  Qed.

  Lemma remove_inv s segs live p : Inv s segs live -> In p live ->
    exists s' segs', remove LOG s (p_idx p) = Some s' /\
      Inv s' segs' (if p_refs p =? 1 then drop (p_idx p) live else live).
  Proof.
    intros I Hp. unfold remove. destruct (i_live _ _ _ I p Hp) as (F1 & F2 & F3 & F4 & F5). rewrite F2.
    destruct (N.eqb_spec (p_refs p) 1) as [E|E]; [|eauto].
    pose proof (release_inv s segs live p I Hp) as I1.
    destruct (p_idx p =? tail (upd_hdr (p_idx p) (fun h => set_refs h 0) s)); [|eauto].
    destruct (collect_inv _ _ _ I1) as (s' & segs' & X & Y & _). eauto.
  Qed.

  Lemma crash_remove_inv s segs live p k : Inv s segs live -> In p live ->
    exists segs', Inv (crash_remove LOG s (p_idx p) k) segs' (if p_refs p =? 1 then drop (p_idx p) live else live).
  Proof.
    intros I Hp. unfold crash_remove. destruct (i_live _ _ _ I p Hp) as (F1 & F2 & F3 & F4 & F5). rewrite F2.
    destruct (N.eqb_spec (p_refs p) 1) as [E|E]; [|eauto].
    pose proof (release_inv s segs live p I Hp) as I1.
    destruct (p_idx p =? tail (upd_hdr (p_idx p) (fun h => set_refs h 0) s)); [|eauto].
    apply (gc_upto_inv k _ _ _ I1).
  Qed.

  Lemma crash_alloc_inv s segs live len k : Inv s segs live ->
    let pad := pad_needed LOG s (nb len) in
    exists segs', Inv (crash_alloc LOG BS HDR s len k) segs'
      (if free LOG s (nb len + pad) && Nat.leb (length (commit_effects LOG (nb len) pad)) k
       then mk_pkt (packet_pos s pad) len 1 false :: live else live).
  Proof.
    intros I pad. unfold crash_alloc. fold pad. destruct (free LOG s (nb len + pad)) eqn:R; cbn [andb]; [|eauto].
    destruct (Nat.leb_spec (length (commit_effects LOG (nb len) pad)) k) as [L|L].
    - rewrite firstn_all2 by auto. apply (commit_inv s segs live len I R).
    - destruct (ready_spec _ _ _ _ I R) as (R1 & R2). fold pad in R1, R2.
      rewrite commit_effects_eq in *. destruct R2 as [(Z & Hh)|(P & Hh)].
      + rewrite Z in *. cbn [N.eqb app length hh3] in L. cbn [N.eqb app].
        rewrite firstn_app. replace (k - length (hh3 (nb len)))%nat with 0%nat by (cbn; lia).
        cbn [firstn]. rewrite app_nil_r. exists segs. eapply sbh_inv; [exact I|]. apply sbh_all. apply Forall_firstn'. apply hh3_ok.
      + destruct (N.eqb_spec pad 0) as [E|_]; [lia|].
        rewrite !app_length in L. cbn [length hh6 hh3] in L.
        destruct (Nat.leb_spec k 6) as [K6|K6].
        * rewrite firstn_app. replace (k - length (hh6 pad ++ [set_head 0]))%nat with 0%nat by (cbn; lia).
          cbn [firstn]. rewrite app_nil_r. rewrite firstn_app. replace (k - length (hh6 pad))%nat with 0%nat by (cbn; lia).
          cbn [firstn]. rewrite app_nil_r. exists segs. eapply sbh_inv; [exact I|]. apply sbh_all. apply Forall_firstn'. apply hh6_ok.
        * rewrite firstn_app, (firstn_all2 (hh6 pad ++ [set_head 0])) by (cbn; lia).
          change (length (hh6 pad ++ [set_head 0])) with 7%nat.
          rewrite firstn_app. replace (k - 7 - length (hh3 (nb len)))%nat with 0%nat by (cbn; lia).
          cbn [firstn]. rewrite app_nil_r, apply_all_app.
          eexists. eapply sbh_inv; [apply (pad_inv s segs live pad I P Hh); lia|].
          apply sbh_all. apply Forall_firstn'. apply hh3_ok.
  Qed.

  (** *** Reference changes *)
  Lemma bump_map i r l : map p_idx (bump i r l) = map p_idx l.
  Proof.
    unfold bump. rewrite map_map. apply map_ext. intros p. destruct (N.eqb_spec (p_idx p) i); auto.
  Qed.
  Lemma nodup_idx live p q : NoDup (map p_idx live) -> In p live -> In q live -> p_idx p = p_idx q -> p = q.
  Proof.
    induction live as [|a l IH]; cbn [map]; intros N P Q E; [destruct P|].
    inversion N as [|? ? N1 N2]; subst. destruct P as [<-|P], Q as [<-|Q]; auto.
    - exfalso. apply N1. rewrite E. apply in_map; auto.
    - exfalso. apply N1. rewrite <- E. apply in_map; auto.
  Qed.
  Lemma refs_inv s segs live p r : Inv s segs live -> In p live -> 1 <= r ->
    Inv (upd_hdr (p_idx p) (fun h => set_refs h r) s) segs (bump (p_idx p) r live).
  Proof.
    intros [A B C D E F G K] Hp Hr. split; cbn [upd_hdr hdrs head tail]; rewrite ?bump_map; auto.
    - intros st n J. destruct (st =? p_idx p); cbn [set_refs blocks]; auto.
    - intros q J. unfold bump in J. apply in_map_iff in J. destruct J as (q0 & Eq & J).
      destruct (F q0 J) as (F1 & F2 & F3 & F4 & F5).
      destruct (N.eqb_spec (p_idx q0) (p_idx p)) as [Ei|Ei].
      + subst q. unfold good_pkt. cbn [upd_hdr hdrs p_idx p_len p_refs p_owned]. rewrite N.eqb_refl.
        cbn [set_refs refs idx size]. rewrite <- Ei. repeat split; auto.
      + subst q. unfold good_pkt. cbn [upd_hdr hdrs]. destruct (N.eqb_spec (p_idx q0) (p_idx p)); [lia|]. auto.
    - intros st n J J2. destruct (N.eqb_spec st (p_idx p)) as [->|N]; eauto.
      exfalso. apply J2. apply in_map. auto.
  Qed.

  Variable ok : rdrb -> N -> Prop.

  Lemma upd_hdr_ext i f g s : f (hdrs s i) = g (hdrs s i) -> 
    head (upd_hdr i f s) = head (upd_hdr i g s) /\ tail (upd_hdr i f s) = tail (upd_hdr i g s) /\
    forall j, hdrs (upd_hdr i f s) j = hdrs (upd_hdr i g s) j.
  Proof.
    intros E. repeat split. intros j. cbn [upd_hdr hdrs]. destruct (N.eqb_spec j i) as [->|]; auto.
  Qed.

  Lemma step_inv s live s' live' segs : Inv s segs live -> step LOG BS HDR ok s live s' live' ->
    exists segs', Inv s' segs' live'.
  Proof.
    intros I H. destruct H as [s live len s' i _ E|s live len s' E|s live p s' Hp E|s live p Hp|s live p Hp Hr].
    - eapply alloc_inv; eauto.
    - apply alloc_fail in E. subst. eauto.
    - destruct (remove_inv _ _ _ _ I Hp) as (s1 & segs' & X & Y). exists segs'. congruence.
    - destruct (i_live _ _ _ I p Hp) as (_ & F2 & F3 & _). exists segs.
      pose proof (refs_inv s segs live p (p_refs p + 1) I Hp ltac:(lia)) as I'.
      destruct (upd_hdr_ext (p_idx p) (fun h => set_refs h (refs h + 1)) (fun h => set_refs h (p_refs p + 1)) s) as (X & Y & Z).
      { rewrite F2. reflexivity. }
      eapply Inv_ext; [exact I'|exact X|exact Y|]. intros; apply Z.
    - destruct (i_live _ _ _ I p Hp) as (_ & F2 & F3 & _). exists segs.
      pose proof (refs_inv s segs live p (p_refs p - 1) I Hp ltac:(lia)) as I'.
      destruct (upd_hdr_ext (p_idx p) (fun h => set_refs h (refs h - 1)) (fun h => set_refs h (p_refs p - 1)) s) as (X & Y & Z).
      { rewrite F2. reflexivity. }
      eapply Inv_ext; [exact I'|exact X|exact Y|]. intros; apply Z.
  Qed.

  Lemma crash_inv s live s' live' segs : Inv s segs live -> crash LOG BS HDR ok s live s' live' ->
    exists segs', Inv s' segs' live' /\ clean s'.
  Proof.
    intros I H. destruct H as [s live len k s' pad all _ E|s live p k s' Hp E].
    - destruct (crash_alloc_inv s segs live len k I) as (segs1 & I1).
      destruct (sanitize_inv _ _ _ I1) as (s2 & segs2 & X & Y & Z).
      assert (s2 = s') as -> by congruence. exists segs2. split; auto.
    - destruct (crash_remove_inv s segs live p k I Hp) as (segs1 & I1).
      destruct (sanitize_inv _ _ _ I1) as (s2 & segs2 & X & Y & Z).
      assert (s2 = s') as -> by congruence. exists segs2. split; auto.
  Qed.

  Lemma init_inv h : Inv (mk_rdrb h 0 0) [] [].
  Proof.
    pose proof S2. split; cbn [tail head hdrs seg_ok sumn map In]; try tauto; try lia; try constructor.

  Qed.

  Lemma reach_inv s live : reach LOG BS HDR ok s live -> exists segs, Inv s segs live.
  Proof.
    induction 1 as [h|s live s' live' _ (segs & I) H|s live s' live' _ (segs & I) H].
    - exists []. apply init_inv.
    - eapply step_inv; eauto.
    - destruct (crash_inv _ _ _ _ _ I H) as (segs' & I' & _). eauto.
  Qed.

  (** *** The properties *)
  Lemma live_pkt s live p : reach LOG BS HDR ok s live -> In p live ->
    p_idx p + nb (p_len p) <= S /\ OVERHEAD + p_len p + HDR <= nb (p_len p) * BS /\
    blocks (hdrs s (p_idx p)) = nb (p_len p) /\ refs (hdrs s (p_idx p)) = p_refs p /\
    idx (hdrs s (p_idx p)) = p_idx p /\
    (p_owned p = true -> size (hdrs s (p_idx p)) = OVERHEAD + p_len p).
  Proof.
    intros R Hp. destruct (reach_inv _ _ R) as (segs & I). destruct (i_live _ _ _ I p Hp) as (F1 & F2 & F3 & F4 & F5).
    pose proof (seg_n_pos _ _ _ _ _ (i_seg _ _ _ I) F1). pose proof (i_blk _ _ _ I _ _ F1).
    repeat split; auto; try apply nb_fits; tauto.
  Qed.

  Lemma live_disjoint s live p q b : reach LOG BS HDR ok s live -> In p live -> In q live ->
    occupies BS HDR p b -> occupies BS HDR q b -> p = q.
  Proof.
    intros R Hp Hq (P1 & P2) (Q1 & Q2). destruct (reach_inv _ _ R) as (segs & I).
    destruct (i_live _ _ _ I p Hp) as (F1 & _). destruct (i_live _ _ _ I q Hq) as (G1 & _).
    pose proof (i_sum _ _ _ I).
    assert ((p_idx p, nb (p_len p)) = (p_idx q, nb (p_len q))) as E
      by (apply (seg_disj (tail s) segs 0 _ _ b); auto; try apply I; cbn [fst snd]; lia).
    apply (nodup_idx live); auto; try apply I. congruence.
  Qed.

  Lemma nodup_live s live : reach LOG BS HDR ok s live -> NoDup (map p_idx live).
  Proof. intros R. destruct (reach_inv _ _ R) as (segs & I). apply I. Qed.

  (** Blocks from tail to head. *)
  Definition in_use (s : rdrb) : N := (head s + S - tail s) mod S.
  Lemma in_use_spec s segs live : Inv s segs live -> in_use s = sumn segs.
  Proof.
    intros I. pose proof S2. pose proof (i_tail _ _ _ I). pose proof (i_sum _ _ _ I).
    unfold in_use. rewrite (i_head _ _ _ I). 
    replace ((tail s + sumn segs) mod S + S - tail s) with ((tail s + sumn segs) mod S + (S - tail s)) by lia.
    rewrite N.add_mod_idemp_l by lia. replace (tail s + sumn segs + (S - tail s)) with (sumn segs + 1 * S) by lia.
    rewrite N.mod_add by lia. apply N.mod_small. lia.
  Qed.
  Lemma alloc_result s live len : reach LOG BS HDR ok s live ->
    let pad := if S <? head s + nb len then S - head s else 0 in
    (in_use s + pad + nb len + 2 <= S -> exists s' i, alloc LOG BS HDR s len = (s', Some i) /\ i = (if pad =? 0 then head s else 0)) /\
    (~ in_use s + pad + nb len + 2 <= S -> alloc LOG BS HDR s len = (s, None)).
  Proof.
    intros R pad. destruct (reach_inv _ _ R) as (segs & I). rewrite (in_use_spec _ _ _ I).
    assert (pad = pad_needed LOG s (nb len)) as Ep by (unfold pad, pad_needed; rewrite (N.add_comm (nb len)); reflexivity).
    unfold alloc. rewrite <- Ep. unfold free. rewrite (used_spec _ _ _ I). unfold commit, packet_pos. split; intros H.
    - destruct (N.ltb_spec (sumn segs + 1 + (nb len + pad)) S); [|lia]. eauto.
    - destruct (N.ltb_spec (sumn segs + 1 + (nb len + pad)) S); [lia|]. reflexivity.
  Qed.

  Lemma remove_total s live p : reach LOG BS HDR ok s live -> In p live -> exists s', remove LOG s (p_idx p) = Some s'.
  Proof.
    intros R Hp. destruct (reach_inv _ _ R) as (segs & I).
    destruct (remove_inv _ _ _ _ I Hp) as (s1 & segs' & X & Y). eauto.
  Qed.
  Lemma sanitize_total s live p len k : reach LOG BS HDR ok s live ->
    (exists s', sanitize LOG (crash_alloc LOG BS HDR s len k) = Some s') /\
    (In p live -> exists s', sanitize LOG (crash_remove LOG s (p_idx p) k) = Some s').
  Proof.
    intros R. destruct (reach_inv _ _ R) as (segs & I). split.
    - destruct (crash_alloc_inv s segs live len k I) as (segs1 & I1).
      destruct (sanitize_inv _ _ _ I1) as (s2 & segs2 & X & Y & Z). eauto.
    - intros Hp. destruct (crash_remove_inv s segs live p k I Hp) as (segs1 & I1).
      destruct (sanitize_inv _ _ _ I1) as (s2 & segs2 & X & Y & Z). eauto.
  Qed.
End P.

(** *** Reclamation *)
Section Reclaim.
  Variables LOG BS HDR : N.
  Hypothesis HLOG : 1 <= LOG.
  Hypothesis HBS : 1 <= BS.

  (** Allocations that do not pad an empty pool. *)
  Definition no_empty_pad (s : rdrb) (len : N) : Prop :=
    head s + n_blocks BS HDR len <= SIZE LOG \/ head s <> tail s.

  Lemma clean_alloc s segs live len s' i : Inv LOG BS HDR s segs live -> no_empty_pad s len -> clean s ->
    alloc LOG BS HDR s len = (s', Some i) -> clean s'.
  Proof.
    intros I N C E.
    destruct (alloc_inv LOG BS HDR HLOG HBS s segs live len s' i I E) as (segs' & I').
    unfold alloc in E. destruct (free LOG s _) eqn:R; [|discriminate].
    pose proof (head_lt LOG BS HDR HLOG HBS s segs live I) as HL. unfold commit in E. injection E as <- <-.
    set (nb := n_blocks BS HDR len) in *. set (pad := pad_needed LOG s nb) in *.
    rewrite commit_effects_eq in *. rewrite apply_all_app in *.
    set (s1 := apply_all (if pad =? 0 then [] else hh6 pad ++ [set_head 0]) s) in *.
    set (s2 := apply_all (hh3 nb ++ [adv LOG nb]) s1) in *.
    unfold clean in *. right.
    assert (Ht1 : tail s1 = tail s).
    { unfold s1. destruct (pad =? 0); [reflexivity|]. reflexivity. }
    assert (Ht2 : tail s2 = tail s) by (rewrite <- Ht1; reflexivity).
    assert (Hh1 : head s1 = packet_pos s pad).
    { unfold s1, packet_pos. destruct (pad =? 0); reflexivity. }
    change (tail (owner_stores (packet_pos s pad) len s2)) with (tail s2). rewrite Ht2.
    unfold owner_stores; cbn [upd_hdr hdrs].
    assert (X : refs (hdrs s2 (tail s)) <> 0).
    { unfold s2. rewrite apply_all_app. cbn [apply_all fold_left adv set_head hdrs].
      unfold hh3. cbn [apply_all fold_left upd_head_hdr upd_hdr hdrs head].
      destruct (N.eqb_spec (tail s) (head s1)) as [E|E].
      - cbn [set_refs set_idx set_blocks refs]. lia.
      - (* header at tail unchanged *)
        assert (hdrs s1 (tail s) = hdrs s (tail s) /\ head s <> tail s) as [-> NE].
        { unfold s1. destruct (N.eqb_spec pad 0) as [Z|Z].
          - split; [reflexivity|]. intros E2. apply E. rewrite Hh1. unfold packet_pos.
            destruct (N.eqb_spec pad 0); congruence.
          - assert (head s <> tail s).
            { destruct N as [N|N]; auto. exfalso. apply Z. unfold pad, pad_needed.
              destruct (N.ltb_spec (SIZE LOG) (nb + head s)); lia. }
            split; auto. unfold hh6. cbn [app apply_all fold_left upd_head_hdr upd_hdr hdrs head set_head].
            destruct (N.eqb_spec (tail s) (head s)); congruence. }
        destruct C as [C|C]; congruence. }
    destruct (tail s =? packet_pos s pad); cbn [set_size set_du_head set_du_tail refs]; auto.
  Qed.

  Lemma clean_reach s live : reach LOG BS HDR no_empty_pad s live -> clean s.
  Proof.
    induction 1 as [h|s live s' live' R C H|s live s' live' R C H].
    - left. reflexivity.
    - destruct (reach_inv LOG BS HDR HLOG HBS _ _ _ R) as (segs & I).
      destruct H as [s live len s' i K E|s live len s' E|s live p s' Hp E|s live p Hp|s live p Hp Hr].
      + eapply clean_alloc; eauto.
      + apply alloc_fail in E. subst. auto.
      + unfold remove in E. destruct (refs (hdrs s (p_idx p)) =? 1) eqn:E1; [|congruence].
        set (s1 := upd_hdr (p_idx p) (fun h => set_refs h 0) s) in *.
        destruct (N.eqb_spec (p_idx p) (tail s1)) as [E2|E2].
        * pose proof (release_inv LOG BS HDR s segs live p I Hp) as I1. fold s1 in I1.
          destruct (collect_inv LOG BS HDR HLOG HBS _ _ _ I1) as (s2 & segs2 & X & Y & Z & _). congruence.
        * injection E as <-. unfold clean in *. cbn [s1 upd_hdr head tail hdrs] in *.
          destruct (N.eqb_spec (tail s) (p_idx p)); [congruence|]. auto.
      + unfold clean in *. cbn [wait_ack upd_hdr head tail hdrs]. destruct C as [C|C]; auto. right.
        destruct (tail s =? p_idx p); cbn [set_refs refs]; lia.
      + destruct (i_live _ _ _ _ _ _ I p Hp) as (_ & F2 & _).
        unfold clean in *. cbn [ack upd_hdr head tail hdrs]. destruct C as [C|C]; auto. right.
        destruct (N.eqb_spec (tail s) (p_idx p)) as [->|]; cbn [set_refs refs]; lia.
    - destruct (reach_inv LOG BS HDR HLOG HBS _ _ _ R) as (segs & I).
      destruct (crash_inv LOG BS HDR HLOG HBS _ _ _ _ _ _ I H) as (_ & _ & C'). exact C'.
  Qed.

  Lemma reclaimed s : reach LOG BS HDR no_empty_pad s [] -> head s = tail s.
  Proof.
    intros R. destruct (clean_reach _ _ R) as [C|C]; auto.
    destruct (reach_inv LOG BS HDR HLOG HBS _ _ _ R) as (segs & I).
    destruct segs as [|[st n] r].
    - pose proof (proj2 (empty_iff LOG BS HDR HLOG HBS s [] [] I) eq_refl) as E. unfold empty in E. apply N.eqb_eq in E. auto.
    - exfalso. pose proof (i_seg _ _ _ _ _ _ I) as (B1 & _). pose proof (i_tail _ _ _ _ _ _ I).
      rewrite N.add_0_r, N.mod_small in B1 by auto.
      apply C. rewrite <- B1. apply (i_dead _ _ _ _ _ _ I st n); cbn; auto.
  Qed.

End Reclaim.

Lemma reach_weaken LOG BS HDR (P Q : rdrb -> N -> Prop) s live :
  1 <= LOG -> 1 <= BS ->
  (forall s live len, reach LOG BS HDR Q s live -> P s len -> Q s len) ->
  reach LOG BS HDR P s live -> reach LOG BS HDR Q s live.
Proof.
  intros HL HB W R. induction R as [h|s live s' live' R IH H|s live s' live' R IH H].
  - constructor.
  - eapply re_step; [exact IH|]. destruct H; econstructor; eauto.
  - eapply re_crash; [exact IH|]. destruct H; [eapply cr_alloc|eapply cr_remove]; eauto.
Qed.

Lemma single_block_reclaimed LOG BS HDR s : 1 <= LOG -> 1 <= BS ->
  reach LOG BS HDR (fun _ len => n_blocks BS HDR len = 1) s [] -> head s = tail s.
Proof.
  intros HL HB R. apply (reclaimed LOG BS HDR HL HB s).
  eapply reach_weaken; [exact HL|exact HB| |exact R].
  intros s0 live len R0 E. destruct (reach_inv LOG BS HDR HL HB _ _ _ R0) as (segs & I).
  pose proof (head_lt LOG BS HDR HL HB _ _ _ I). left. rewrite E. lia.
Qed.

(** *** Blocking allocation *)
Section Blocking.
  Variables LOG BS HDR : N.
  Notation nb := (n_blocks BS HDR).

  Definition as_outcome (pad : N) (r : rdrb * option N) : rdrb * outcome :=
    (fst r, match snd r with Some i => Done i | None => Wait pad end).

  Lemma begin_eq s len : alloc_b_begin LOG BS HDR s len = as_outcome (pad_needed LOG s (nb len)) (alloc LOG BS HDR s len).
  Proof. unfold alloc_b_begin, alloc, as_outcome. destruct (free LOG s _); reflexivity. Qed.

  Lemma wake_eq s len pad : pad = 0 \/ SIZE LOG < nb len + head s ->
    alloc_b_wake LOG BS HDR s len pad = as_outcome (pad_needed LOG s (nb len)) (alloc LOG BS HDR s len).
  Proof.
    intros H. unfold alloc_b_wake, alloc, as_outcome.
    assert ((if SIZE LOG <? nb len + head s then SIZE LOG - head s else pad) = pad_needed LOG s (nb len)) as ->.
    { unfold pad_needed. destruct (N.ltb_spec (SIZE LOG) (nb len + head s)); [reflexivity|lia]. }
    destruct (free LOG s _); reflexivity.
  Qed.
End Blocking.

(** *** Concrete histories *)
Section Exec.
  Variables LOG BS HDR : N.
  Definition anything (_ : rdrb) (_ : N) : Prop := True.

  Inductive cop : Type := A (len : N) | R (i : N).
  Definition exec1 (s : rdrb) (live : list pkt) (o : cop) : option (rdrb * list pkt) :=
    match o with
    | A len => match alloc LOG BS HDR s len with
               | (s', Some i) => Some (s', mk_pkt i len 1 true :: live)
               | (_, None) => None
               end
    | R i => match find (fun p => p_idx p =? i) live with
             | Some p => match remove LOG s (p_idx p) with
                         | Some s' => Some (s', if p_refs p =? 1 then drop (p_idx p) live else live)
                         | None => None
                         end
             | None => None
             end
    end.
  Fixpoint exec (s : rdrb) (live : list pkt) (ops : list cop) : option (rdrb * list pkt) :=
    match ops with
    | [] => Some (s, live)
    | o :: t => match exec1 s live o with Some (s', live') => exec s' live' t | None => None end
    end.

  Lemma exec1_step s live o s' live' : exec1 s live o = Some (s', live') -> step LOG BS HDR anything s live s' live'.
  Proof.
    destruct o as [len|i]; cbn [exec1].
    - destruct (alloc LOG BS HDR s len) as [s1 [i|]] eqn:E; [|discriminate]. intros H. injection H as <- <-.
      econstructor; [exact I|exact E].
    - destruct (find _ live) as [p|] eqn:E; [|discriminate]. apply find_some in E.
      destruct (remove LOG s (p_idx p)) as [s1|] eqn:E1; [|discriminate]. intros H. injection H as <- <-.
      econstructor; [apply E|exact E1].
  Qed.

  Lemma steps_cons s live s1 live1 s2 live2 : step LOG BS HDR anything s live s1 live1 ->
    steps LOG BS HDR anything s1 live1 s2 live2 -> steps LOG BS HDR anything s live s2 live2.
  Proof.
    intros H K. induction K as [|a b c d e f K IH L].
    - eapply ss_step; [apply ss_refl|exact H].
    - eapply ss_step; [exact (IH H)|exact L].
  Qed.

  Lemma exec_steps ops : forall s live s' live', exec s live ops = Some (s', live') ->
    steps LOG BS HDR anything s live s' live'.
  Proof.
    induction ops as [|o ops IH]; cbn [exec]; intros s live s' live' E.
    - injection E as <- <-. apply ss_refl.
    - destruct (exec1 s live o) as [[s1 live1]|] eqn:E1; [|discriminate].
      eapply steps_cons; [exact (exec1_step _ _ _ _ _ E1)|apply IH; exact E].
  Qed.

  Lemma reach_steps s live s' live' : reach LOG BS HDR anything s live -> steps LOG BS HDR anything s live s' live' ->
    reach LOG BS HDR anything s' live'.
  Proof. intros H K. induction K as [|a b c d e f K IH L]; auto. eapply re_step; [exact (IH H)|exact L]. Qed.

  Definition fresh : rdrb := mk_rdrb (fun _ => mk_hdr 0 0 0 0 0 0) 0 0.

  Lemma exec_witness ops (P : rdrb -> list pkt -> Prop) :
    match exec fresh [] ops with Some (s, live) => P s live | None => False end ->
    exists s live, reach LOG BS HDR anything s live /\ P s live.
  Proof.
    intros K. destruct (exec fresh [] ops) as [[s live]|] eqn:E; [|destruct K].
    exists s, live. split; auto. eapply reach_steps; [apply re_init|]. apply exec_steps in E. exact E.
  Qed.

  (** Full for ever: nothing can be allocated and there is nothing to remove. *)
  Lemma stuck s : used LOG s + 1 >= SIZE LOG -> 1 <= BS ->
    (forall len, alloc LOG BS HDR s len = (s, None)) /\
    forall s' live', steps LOG BS HDR anything s [] s' live' -> s' = s /\ live' = [].
  Proof.
    intros U B. assert (F : forall len, alloc LOG BS HDR s len = (s, None)).
    { intros len. pose proof (nb_pos BS HDR B len). unfold alloc, free.
      destruct (N.ltb_spec (used LOG s + (n_blocks BS HDR len + pad_needed LOG s (n_blocks BS HDR len))) (SIZE LOG)); [lia|reflexivity]. }
    split; auto. intros s' live' K. remember [] as l0 eqn:El0 in K. remember s as s0 eqn:Es0 in K.
    induction K as [a b|a b c d e f K IH L]; subst; auto.
    destruct (IH eq_refl eq_refl) as [-> ->].
    inversion L; subst; try (match goal with H : In _ [] |- _ => destruct H end).
    - rewrite F in *. discriminate.
    - rewrite F in *. split; congruence.
  Qed.
End Exec.
