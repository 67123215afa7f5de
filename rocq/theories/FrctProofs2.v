(* The invariant of a reliable flow. *)
From Coq Require Import NArith ZArith List Bool Lia ZifyBool ZifyNat.
From Verif Require Import SeqNoModel SeqNoProofs FrctModel FrctSpec FrctProofs.
Import ListNotations.
Open Scope Z_scope.

Lemma zlen_app {X} : forall (l k : list X), zlen (l ++ k) = zlen l + zlen k.
Proof. intros. unfold zlen. rewrite app_length. lia. Qed.
Lemma zlen_nonneg {X} : forall l : list X, 0 <= zlen l.
Proof. intros. unfold zlen. lia. Qed.

(* The i-th packet written was d, at time t. *)
Definition wat (w : list (data * Z)) (i : Z) (d : data) (t : Z) : Prop :=
  0 <= i /\ nth_error w (Z.to_nat i) = Some (d, t).

Lemma wat_lt : forall w i d t, wat w i d t -> 0 <= i < zlen w.
Proof.
  intros w i d t [H E]. assert (Z.to_nat i < length w)%nat by (apply nth_error_Some; congruence).
  unfold zlen. lia.
Qed.

Lemma wat_app : forall w x i d t, wat w i d t -> wat (w ++ [x]) i d t.
Proof.
  intros w x i d t H. pose proof (wat_lt _ _ _ _ H). destruct H as [H E]. split; [exact H|].
  rewrite nth_error_app1; [exact E|]. unfold zlen in *. lia.
Qed.

Lemma wat_last : forall w d t, wat (w ++ [(d, t)]) (zlen w) d t.
Proof.
  intros. split; [apply zlen_nonneg|]. unfold zlen. rewrite Nat2Z.id, nth_error_app2 by lia.
  rewrite Nat.sub_diag. reflexivity.
Qed.

Lemma wat_app_inv : forall w d' t' i d t, wat (w ++ [(d', t')]) i d t ->
  wat w i d t \/ (i = zlen w /\ d = d' /\ t = t').
Proof.
  intros w d' t' i d t [H E]. destruct (Z_lt_dec i (zlen w)) as [L | L].
  - left. split; [exact H|]. rewrite nth_error_app1 in E; [exact E|]. unfold zlen in L. lia.
  - right. unfold zlen in L. rewrite nth_error_app2 in E by lia.
    destruct (Z.to_nat i - length w)%nat as [|k] eqn:K; cbn in E.
    + injection E as -> ->. unfold zlen. split; [lia | auto].
    + destruct k; discriminate E.
Qed.

Section Invariant.

(* The times, in seconds: maximum packet lifetime, delta-a, delta-r. *)
Variables m da dr : Z.
Hypothesis Hm : 0 <= m.
Hypothesis Ha : 0 <= da.
Hypothesis Hr : 0 <= dr.

Definition ns (t : Z) : Z := t * BILLION.

Definition seq (r0 s0 i : Z) : Z := w32 (s0 + (i - r0)).

(* A packet of A, with the given number: sent no later than delta-r after it
   was written; the old runs are over. *)
Definition good_data (w : list (data * Z)) (n now r0 s0 : Z) (h : pci) (d : data) (sent no : Z) : Prop :=
  (exists t, wat w no d t /\ sent <= t + ns dr) /\
  (r0 <= no -> p_seqno h = seq r0 s0 no) /\
  (no < r0 -> sent + ns m < now) /\
  (p_drf h = true -> no <= n).

Definition good_rxm (w : list (data * Z)) (n now r0 s0 : Z) (e : rxm) : Prop :=
  p_data (x_hdr e) = true /\ x_seqno e = p_seqno (x_hdr e) /\
  wat w (x_no e) (x_body e) (x_t0 e) /\
  (r0 <= x_no e -> p_seqno (x_hdr e) = seq r0 s0 (x_no e)) /\
  (x_no e < r0 -> x_t0 e + ns dr + ns m < now) /\
  (p_drf (x_hdr e) = true -> x_no e <= n).

Definition good_ack (n now r0 s0 atr : Z) (fl : flight) : Prop :=
  f_sent fl < atr + ns da + ns dr + BILLION /\
  ((r0 <= f_got fl <= n /\ p_ackno (f_hdr fl) = seq r0 s0 (f_got fl)) \/
   f_sent fl + ns m < now).

Definition queue_ok (w : list (data * Z)) (n atr lb : Z) (q : list (option data)) : Prop :=
  forall j d, 0 <= j < RQ_SIZE -> rq_get q (slot (lb + j)) = Some d ->
    exists t, wat w (n + j) d t /\ t <= atr.

Record inv_at (w : list (data * Z)) (g : list data) (rx ry : list rxm)
  (nxy nyx : list flight) (now : Z) (aw : bool)
  (r0 s0 la ats lb atr : Z) (q : list (option data)) : Prop := {
  v_order : 0 <= r0 <= la /\ la <= zlen g <= zlen w;
  v_few : zlen w - la < 2 ^ 31;
  v_time : ats <= now /\ atr <= now;
  v_wtime : forall i d t, wat w i d t -> t <= ats;
  v_gtime : forall i d t, wat w i d t -> i < zlen g -> t <= atr;
  v_pre : forall i d, nth_error g i = Some d -> exists t, nth_error w i = Some (d, t);
  v_qlen : length q = Z.to_nat RQ_SIZE;
  v_sync : (aw = false /\ lb = seq r0 s0 (zlen g) /\ queue_ok w (zlen g) atr lb q) \/
           (aw = true /\ zlen g = r0 /\ (forall k, rq_get q k = None) /\
            sec now - sec atr > 2 * m + da + dr + 1);
  v_rx : Forall (good_rxm w (zlen g) now r0 s0) rx;
  v_nxy : forall fl, In fl nxy ->
            (p_data (f_hdr fl) = true ->
             good_data w (zlen g) now r0 s0 (f_hdr fl) (f_body fl) (f_sent fl) (f_no fl)) /\
            (p_data (f_hdr fl) = false -> p_drf (f_hdr fl) = false);
  v_nyx : forall fl, In fl nyx -> p_ack (f_hdr fl) = true ->
            good_ack (zlen g) now r0 s0 atr fl;
  v_ry : forall e, In e ry -> p_ack (x_hdr e) = true -> x_t0 e < atr + ns da + BILLION
}.

Definition inv (s : flow) : Prop :=
  exists r0 s0 la ats lb atr q,
    core_cfg (fr (ea s)) = (ns m, ns da, ns dr) /\
    core_cfg (fr (eb s)) = (ns m, ns da, ns dr) /\
    core_snd (fr (ea s)) = (seq r0 s0 la, seq r0 s0 (zlen (wrote (ea s))), ats, 3 * m + da + dr + 1, true) /\
    core_rcv (fr (eb s)) = (lb, atr, 2 * m + da + dr + 1, true, q) /\
    f_rtx (rcv_cr (fr (ea s))) = true /\ f_rtx (snd_cr (fr (eb s))) = true /\
    inv_at (wrote (ea s)) (got (eb s)) (rxms (ea s)) (rxms (eb s)) (nab s) (nba s)
      (clock s) (await s) r0 s0 la ats lb atr q.

(* ---- Time passes ---- *)

Lemma inv_later : forall w g rx ry nxy nyx now now' aw r0 s0 la ats lb atr q,
  inv_at w g rx ry nxy nyx now aw r0 s0 la ats lb atr q -> now <= now' ->
  inv_at w g rx ry nxy nyx now' aw r0 s0 la ats lb atr q.
Proof.
  intros until q. intros [] L. constructor; auto.
  - lia.
  - destruct v_sync0 as [H | (H1 & H2 & H3 & H4)]; [left; exact H|]. right.
    repeat (split; [assumption|]). eapply idle_mono; eauto.
  - eapply Forall_impl; [|exact v_rx0]. intros e (H1 & H2 & H3 & H4 & H5 & H6).
    unfold good_rxm. repeat (split; [assumption|]). split; [|assumption].
    intros X. specialize (H5 X). lia.
  - intros fl Hf. destruct (v_nxy0 fl Hf) as [H1 H2]. split; [|exact H2].
    intros D. destruct (H1 D) as (G1 & G2 & G3 & G4).
    unfold good_data. split; [exact G1|]. split; [exact G2|]. split; [|exact G4].
    intros X. specialize (G3 X). lia.
  - intros fl Hf D. destruct (v_nyx0 fl Hf D) as (G1 & [G2 | G2]); (split; [exact G1|]);
      [left; exact G2 | right; lia].
Qed.

(* ---- The packets sent and kept by A ---- *)

Lemma inv_more_xy : forall w g rx ry nxy nyx now aw r0 s0 la ats lb atr q out,
  inv_at w g rx ry nxy nyx now aw r0 s0 la ats lb atr q ->
  (forall fl, In fl out ->
     (p_data (f_hdr fl) = true ->
      good_data w (zlen g) now r0 s0 (f_hdr fl) (f_body fl) (f_sent fl) (f_no fl)) /\
     (p_data (f_hdr fl) = false -> p_drf (f_hdr fl) = false)) ->
  inv_at w g rx ry (nxy ++ out) nyx now aw r0 s0 la ats lb atr q.
Proof.
  intros until out. intros [] H. constructor; auto.
  intros fl Hf. apply in_app_or in Hf. destruct Hf as [Hf | Hf]; auto.
Qed.

Lemma inv_more_yx : forall w g rx ry nxy nyx now aw r0 s0 la ats lb atr q out,
  inv_at w g rx ry nxy nyx now aw r0 s0 la ats lb atr q ->
  (forall fl, In fl out -> p_ack (f_hdr fl) = true -> good_ack (zlen g) now r0 s0 atr fl) ->
  inv_at w g rx ry nxy (nyx ++ out) now aw r0 s0 la ats lb atr q.
Proof.
  intros until out. intros [] H. constructor; auto.
  intros fl Hf. apply in_app_or in Hf. destruct Hf as [Hf | Hf]; auto.
Qed.

Lemma drop_nth_incl {X} : forall n (l : list X) x, In x (drop_nth n l) -> In x l.
Proof.
  induction n; intros [|y l] x H; cbn in *; auto. destruct H as [H | H]; auto.
Qed.

Lemma inv_less_rx : forall w g rx rx' ry nxy nyx now aw r0 s0 la ats lb atr q,
  inv_at w g rx ry nxy nyx now aw r0 s0 la ats lb atr q ->
  (forall e, In e rx' -> In e rx) ->
  inv_at w g rx' ry nxy nyx now aw r0 s0 la ats lb atr q.
Proof.
  intros until q. intros [] H. constructor; auto.
  rewrite Forall_forall in *. auto.
Qed.

Lemma inv_less_ry : forall w g rx ry ry' nxy nyx now aw r0 s0 la ats lb atr q,
  inv_at w g rx ry nxy nyx now aw r0 s0 la ats lb atr q ->
  (forall e, In e ry' -> In e ry) ->
  inv_at w g rx ry' nxy nyx now aw r0 s0 la ats lb atr q.
Proof. intros until q. intros [] H. constructor; auto. Qed.

(* ---- Facts about the sequence numbers of a run ---- *)

Lemma seq_before : forall r0 s0 i j, Z.abs (i - j) < 2 ^ 31 ->
  before (seq r0 s0 i) (seq r0 s0 j) = (i <? j).
Proof. intros. unfold seq. rewrite before_w32 by lia. lia. Qed.

Lemma seq_after : forall r0 s0 i j, Z.abs (i - j) < 2 ^ 31 ->
  after (seq r0 s0 i) (seq r0 s0 j) = (i >? j).
Proof. intros. unfold seq. rewrite after_w32 by lia. lia. Qed.

Lemma seq_succ : forall r0 s0 i k, w32 (seq r0 s0 i + k) = seq r0 s0 (i + k).
Proof. intros. unfold seq. rewrite w32_add. f_equal. lia. Qed.

Lemma seq_inj : forall r0 s0 i j, seq r0 s0 i = seq r0 s0 j -> Z.abs (i - j) < 2 ^ 31 -> i = j.
Proof.
  intros r0 s0 i j E H. unfold seq in E. apply w32_inj in E; [lia|].
  unfold two32. change (2 ^ 32) with 4294967296. change (2 ^ 31) with 2147483648 in H. lia.
Qed.

Lemma seq_slot : forall r0 s0 i j, slot (seq r0 s0 i + j) = slot (s0 + (i - r0) + j).
Proof.
  intros. rewrite <- (slot_w32 (seq r0 s0 i + j)). unfold seq. rewrite w32_add, slot_w32.
  reflexivity.
Qed.

(* ---- A writes ---- *)

Lemma queue_empty : forall w n atr lb q, queue_ok w n atr lb q -> n = zlen w ->
  length q = Z.to_nat RQ_SIZE -> forall k, rq_get q k = None.
Proof.
  intros w n atr lb q Q E L k. destruct (le_lt_dec (length q) k) as [K | K].
  - unfold rq_get. apply nth_overflow. exact K.
  - destruct (rq_get q k) eqn:G; [|reflexivity]. exfalso.
    set (j := (Z.of_nat k - lb) mod RQ_SIZE).
    assert (Hj : 0 <= j < RQ_SIZE) by (apply Z.mod_pos_bound; reflexivity).
    assert (Hs : slot (lb + j) = k).
    { unfold slot, j. rewrite Z.add_mod_idemp_r by discriminate.
      replace (lb + (Z.of_nat k - lb)) with (Z.of_nat k) by lia.
      rewrite Z.mod_small; unfold RQ_SIZE in *; lia. }
    destruct (Q j l Hj) as (t & W & _); [rewrite Hs; exact G|].
    apply wat_lt in W. lia.
Qed.

Lemma inv_write_same : forall w g rx ry nxy nyx now aw r0 s0 la ats lb atr q h d keep,
  inv_at w g rx ry nxy nyx now aw r0 s0 la ats lb atr q ->
  zlen w - la < 2 ^ 31 - 1 ->
  p_data h = true -> p_seqno h = seq r0 s0 (zlen w) ->
  p_drf h = (seq r0 s0 (zlen w) =? seq r0 s0 la) -> forall k,
  inv_at (w ++ [(d, now)]) g
    (if keep : bool then rx ++ [Rxm (p_seqno h) h d now (zlen w)] else rx) ry
    (nxy ++ [Flight h d now (zlen w) k]) nyx now aw r0 s0 la now lb atr q.
Proof.
  intros w g rx ry nxy nyx now aw r0 s0 la ats lb atr q h d keep [] F Hd Hs Hf k.
  assert (Hla : p_drf h = true -> zlen w <= zlen g).
  { rewrite Hf. intros E. apply Z.eqb_eq in E. apply seq_inj in E; [lia|].
    destruct v_order0. lia. }
  assert (Zw : zlen (w ++ [(d, now)]) = zlen w + 1) by (rewrite zlen_app; reflexivity).
  assert (Hgr : good_rxm (w ++ [(d, now)]) (zlen g) now r0 s0 (Rxm (p_seqno h) h d now (zlen w))).
  { unfold good_rxm; cbn. split; [exact Hd|]. split; [reflexivity|].
    split; [apply wat_last|]. split; [intros _; exact Hs|]. split; [lia | exact Hla]. }
  assert (Hrx : Forall (good_rxm (w ++ [(d, now)]) (zlen g) now r0 s0) rx).
  { eapply Forall_impl; [|exact v_rx0]. intros e (H1 & H2 & H3 & H4).
    unfold good_rxm. split; [exact H1|]. split; [exact H2|]. split; [apply wat_app, H3|]. exact H4. }
  constructor; auto.
  - rewrite Zw. lia.
  - rewrite Zw. lia.
  - lia.
  - intros i d0 t W. apply wat_app_inv in W. destruct W as [W | (_ & _ & ->)]; [|lia].
    specialize (v_wtime0 _ _ _ W). lia.
  - intros i d0 t W L. apply wat_app_inv in W. destruct W as [W | (-> & _ & _)]; [eauto|].
    lia.
  - intros i d0 E. destruct (v_pre0 i d0 E) as [t T]. exists t.
    rewrite nth_error_app1; [exact T|]. apply nth_error_Some. congruence.
  - destruct v_sync0 as [(H1 & H2 & H3) | H]; [left|right; exact H].
    split; [exact H1|]. split; [exact H2|]. intros j d0 J E.
    destruct (H3 j d0 J E) as (t & T1 & T2). exists t. split; [apply wat_app, T1 | exact T2].
  - destruct keep; [|exact Hrx]. apply Forall_app. split; [exact Hrx|]. constructor; auto.
  - intros fl Hfl. apply in_app_or in Hfl. destruct Hfl as [Hfl | [<- | []]].
    + destruct (v_nxy0 fl Hfl) as [H1 H2]. split; [|exact H2]. intros X.
      destruct (H1 X) as ((t & T1 & T2) & G2). split; [|exact G2]. exists t.
      split; [apply wat_app, T1 | exact T2].
    + cbn. split; [|rewrite Hd; discriminate]. intros _. unfold good_data.
      split; [exists now; split; [apply wat_last | unfold ns, BILLION; lia]|].
      split; [intros _; exact Hs|]. split; [lia | exact Hla].
Qed.

Lemma inv_write_new : forall w g rx ry nxy nyx now aw r0 s0 la ats lb atr q h d rnd keep,
  inv_at w g rx ry nxy nyx now aw r0 s0 la ats lb atr q ->
  seq r0 s0 (zlen w) = seq r0 s0 la ->
  sec now - sec ats > 3 * m + da + dr + 1 ->
  sec now - sec atr > 2 * m + da + dr + 1 ->
  p_data h = true -> p_seqno h = w32 rnd -> forall k,
  inv_at (w ++ [(d, now)]) g
    (if keep : bool then rx ++ [Rxm (p_seqno h) h d now (zlen w)] else rx) ry
    (nxy ++ [Flight h d now (zlen w) k]) nyx now true (zlen w) rnd (zlen w) now lb atr q.
Proof.
  intros w g rx ry nxy nyx now aw r0 s0 la ats lb atr q h d rnd keep [] E Ia Ib Hd Hs k.
  assert (Wl : zlen w = la) by (apply seq_inj in E; [lia | destruct v_order0; lia]).
  assert (Wg : zlen g = zlen w) by lia.
  pose proof Ib as Ib'. apply idle in Ia. apply idle in Ib.
  assert (Zw : zlen (w ++ [(d, now)]) = zlen w + 1) by (rewrite zlen_app; reflexivity).
  assert (Sq : w32 rnd = seq (zlen w) rnd (zlen w)) by (unfold seq; f_equal; lia).
  assert (Hold : Forall (good_rxm (w ++ [(d, now)]) (zlen g) now (zlen w) rnd) rx).
  { eapply Forall_impl; [|exact v_rx0]. intros e (H1 & H2 & H3 & H4 & H5 & H6).
    pose proof (wat_lt _ _ _ _ H3) as L. pose proof (v_wtime0 _ _ _ H3) as T.
    unfold good_rxm. split; [exact H1|]. split; [exact H2|]. split; [apply wat_app, H3|].
    split; [lia|]. split; [|lia]. intros _. unfold ns, BILLION in *. lia. }
  constructor; auto.
  - lia.
  - rewrite Zw. lia.
  - lia.
  - intros i d0 t W. apply wat_app_inv in W. destruct W as [W | (_ & _ & ->)]; [|lia].
    specialize (v_wtime0 _ _ _ W). lia.
  - intros i d0 t W L. apply wat_app_inv in W. destruct W as [W | (-> & _ & _)]; [eauto|].
    lia.
  - intros i d0 X. destruct (v_pre0 i d0 X) as [t T]. exists t.
    rewrite nth_error_app1; [exact T|]. apply nth_error_Some. congruence.
  - right. split; [reflexivity|]. split; [exact Wg|]. split.
    + destruct v_sync0 as [(H1 & H2 & H3) | (H1 & H2 & H3 & H4)]; [|exact H3].
      eapply queue_empty; eauto.
    + exact Ib'.
  - destruct keep; [|exact Hold]. apply Forall_app. split; [exact Hold|]. constructor; [|constructor].
    unfold good_rxm; cbn. split; [exact Hd|]. split; [reflexivity|].
    split; [apply wat_last|]. split; [intros _; congruence|]. split; lia.
  - intros fl Hfl. apply in_app_or in Hfl. destruct Hfl as [Hfl | [<- | []]].
    + destruct (v_nxy0 fl Hfl) as [H1 H2]. split; [|exact H2]. intros X.
      destruct (H1 X) as ((t & T1 & T2) & G2 & G3 & G4).
      pose proof (wat_lt _ _ _ _ T1) as L. pose proof (v_wtime0 _ _ _ T1) as T.
      unfold good_data. split; [exists t; split; [apply wat_app, T1 | exact T2]|].
      split; [lia|]. split; [|lia]. intros _. unfold ns, BILLION in *. lia.
    + cbn. split; [|rewrite Hd; discriminate]. intros _. unfold good_data.
      split; [exists now; split; [apply wat_last | unfold ns, BILLION; lia]|].
      split; [intros _; congruence|]. split; lia.
  - intros fl Hfl X. destruct (v_nyx0 fl Hfl X) as [G1 _]. split; [exact G1|]. right.
    unfold ns, BILLION in *. lia.
Qed.

(* ---- A hears of an acknowledgement ---- *)

Lemma inv_acked : forall w g rx ry nxy nyx now aw r0 s0 la ats lb atr q k,
  inv_at w g rx ry nxy nyx now aw r0 s0 la ats lb atr q ->
  la <= k <= zlen g ->
  inv_at w g rx ry nxy nyx now aw r0 s0 k ats lb atr q.
Proof. intros until k. intros [] H. constructor; auto; lia. Qed.

(* ---- B reads ---- *)

Lemma inv_read : forall w g rx ry nxy nyx now aw r0 s0 la ats lb atr q d,
  inv_at w g rx ry nxy nyx now aw r0 s0 la ats lb atr q ->
  rq_get q (slot lb) = Some d ->
  inv_at w (g ++ [d]) rx ry nxy nyx now aw r0 s0 la ats (w32 (lb + 1)) atr
    (rq_set q (slot lb) None).
Proof.
  intros w g rx ry nxy nyx now aw r0 s0 la ats lb atr q d [] G.
  destruct v_sync0 as [(H1 & H2 & H3) | (H1 & H2 & H3 & H4)]; [|rewrite H3 in G; discriminate].
  destruct (H3 0 d) as (t & T1 & T2); [unfold RQ_SIZE; lia | rewrite Z.add_0_r; exact G|].
  rewrite Z.add_0_r in T1.
  pose proof (wat_lt _ _ _ _ T1) as L.
  assert (Zg : zlen (g ++ [d]) = zlen g + 1) by (rewrite zlen_app; reflexivity).
  constructor; auto; rewrite ?Zg.
  - lia.
  - intros i d0 t0 W X. destruct (Z.eq_dec i (zlen g)) as [-> | N].
    + destruct W as [_ W]. destruct T1 as [_ T1]. rewrite T1 in W. injection W as <- <-. exact T2.
    + eapply v_gtime0; eauto. lia.
  - intros i d0 E. destruct (Nat.eq_dec i (length g)) as [-> | N].
    + rewrite nth_error_app2, Nat.sub_diag in E by lia. injection E as <-.
      destruct T1 as [_ T1]. unfold zlen in T1. rewrite Nat2Z.id in T1. eauto.
    + rewrite nth_error_app1 in E; [eauto|].
      assert (i < length (g ++ [d]))%nat by (apply nth_error_Some; congruence).
      rewrite app_length in *. cbn in *. lia.
  - rewrite rq_set_length. exact v_qlen0.
  - left. split; [exact H1|]. split; [rewrite H2; apply seq_succ|].
    intros j d0 J E.
    assert (Sl : slot (w32 (lb + 1) + j) = slot (lb + (1 + j))).
    { rewrite <- slot_w32, w32_add, slot_w32. f_equal. lia. }
    rewrite Sl in E. destruct (Z.eq_dec j (RQ_SIZE - 1)) as [-> | N].
    + replace (slot (lb + (1 + (RQ_SIZE - 1)))) with (slot lb) in E.
      * rewrite rq_get_set_same in E; [discriminate|]. rewrite v_qlen0. apply slot_lt.
      * unfold slot. replace (lb + (1 + (RQ_SIZE - 1))) with (lb + 1 * RQ_SIZE) by lia.
        rewrite Z.mod_add by discriminate. reflexivity.
    + rewrite rq_get_set_other in E.
      * destruct (H3 (1 + j) d0) as (u & U1 & U2); [lia | exact E|]. exists u.
        replace (zlen g + 1 + j) with (zlen g + (1 + j)) by lia. auto.
      * intros X. apply slot_inj in X; unfold RQ_SIZE in *; lia.
  - eapply Forall_impl; [|exact v_rx0]. intros e (X1 & X2 & X3 & X4 & X5 & X6).
    unfold good_rxm. repeat (split; [assumption|]). intros Y. specialize (X6 Y). lia.
  - intros fl Hfl. destruct (v_nxy0 fl Hfl) as [X1 X2]. split; [|exact X2]. intros X.
    destruct (X1 X) as (G1 & G2 & G3 & G4). unfold good_data. repeat (split; [assumption|]).
    intros Y. specialize (G4 Y). lia.
  - intros fl Hfl X. destruct (v_nyx0 fl Hfl X) as [G1 [G2 | G2]]; (split; [exact G1|]);
      [left; split; [lia | apply G2] | right; exact G2].
Qed.

(* ---- B receives ---- *)

(* What an arriving packet of A must be like. *)
Lemma arrives : forall w g rx ry nxy nyx now aw r0 s0 la ats lb atr q fl,
  inv_at w g rx ry nxy nyx now aw r0 s0 la ats lb atr q ->
  In fl nxy -> now <= f_sent fl + ns m -> p_data (f_hdr fl) = true ->
  exists t, wat w (f_no fl) (f_body fl) t /\ f_sent fl <= t + ns dr /\
    r0 <= f_no fl /\ p_seqno (f_hdr fl) = seq r0 s0 (f_no fl) /\ t <= now /\
    (p_drf (f_hdr fl) = true -> f_no fl <= zlen g).
Proof.
  intros until fl. intros [] Hf Hl Hd. destruct (v_nxy0 fl Hf) as [H1 _].
  destruct (H1 Hd) as ((t & T1 & T2) & G2 & G3 & G4). exists t.
  pose proof (v_wtime0 _ _ _ T1) as T3.
  assert (r0 <= f_no fl) by (destruct (Z_lt_dec (f_no fl) r0) as [X | X]; [specialize (G3 X); lia | lia]).
  split; [exact T1|]. split; [exact T2|]. split; [assumption|]. split; [auto|]. split; [lia | auto].
Qed.

(* A packet that finds the receive timer run out and starts a run is the
   next one. *)
Lemma drf_next : forall w g rx ry nxy nyx now aw r0 s0 la ats lb atr q fl,
  inv_at w g rx ry nxy nyx now aw r0 s0 la ats lb atr q ->
  In fl nxy -> now <= f_sent fl + ns m ->
  sec now - sec atr > 2 * m + da + dr + 1 -> p_drf (f_hdr fl) = true ->
  p_data (f_hdr fl) = true /\ f_no fl = zlen g /\ p_seqno (f_hdr fl) = seq r0 s0 (zlen g).
Proof.
  intros until fl. intros Iv Hf Hl Hi Hd.
  assert (D : p_data (f_hdr fl) = true).
  { destruct (p_data (f_hdr fl)) eqn:D; [reflexivity|].
    destruct Iv. destruct (v_nxy0 fl Hf) as [_ X]. rewrite X in Hd by exact D. discriminate. }
  destruct (arrives _ _ _ _ _ _ _ _ _ _ _ _ _ _ _ _ Iv Hf Hl D) as (t & T1 & T2 & T3 & T4 & T5 & T6).
  split; [exact D|]. specialize (T6 Hd).
  assert (E : f_no fl = zlen g).
  { destruct (Z.eq_dec (f_no fl) (zlen g)) as [E | N]; [exact E|]. exfalso.
    destruct Iv. assert (t <= atr) by (eapply v_gtime0; eauto; lia).
    apply idle in Hi. unfold ns, BILLION in *. lia. }
  split; [exact E|]. rewrite T4, E. reflexivity.
Qed.

Lemma inv_rcv_same : forall w g rx ry nxy nyx now aw r0 s0 la ats lb atr q,
  inv_at w g rx ry nxy nyx now aw r0 s0 la ats lb atr q ->
  queue_ok w (zlen g) atr (seq r0 s0 (zlen g)) q ->
  inv_at w g rx ry nxy nyx now false r0 s0 la ats (seq r0 s0 (zlen g)) now q.
Proof.
  intros until q. intros [] Q. constructor; auto.
  - lia.
  - intros i d t W L. specialize (v_gtime0 _ _ _ W L). lia.
  - left. split; [reflexivity|]. split; [reflexivity|]. intros j d J E.
    destruct (Q j d J E) as (t & T1 & T2). exists t. split; [exact T1 | lia].
  - intros fl Hf X. destruct (v_nyx0 fl Hf X) as [G1 G2]. split; [lia | exact G2].
  - intros e He X. specialize (v_ry0 e He X). lia.
Qed.

Lemma inv_rcv_store : forall w g rx ry nxy nyx now aw r0 s0 la ats lb atr q fl,
  inv_at w g rx ry nxy nyx now aw r0 s0 la ats lb atr q ->
  queue_ok w (zlen g) atr (seq r0 s0 (zlen g)) q ->
  In fl nxy -> now <= f_sent fl + ns m -> p_data (f_hdr fl) = true ->
  zlen w - f_no fl < 2 ^ 31 ->
  before (p_seqno (f_hdr fl)) (seq r0 s0 (zlen g)) = false ->
  before (p_seqno (f_hdr fl)) (w32 (seq r0 s0 (zlen g) + RQ_SIZE)) = true ->
  inv_at w g rx ry nxy nyx now false r0 s0 la ats (seq r0 s0 (zlen g)) now
    (rq_set q (slot (p_seqno (f_hdr fl))) (Some (f_body fl))).
Proof.
  intros until fl. intros Iv Q Hf Hl Hd Hh B1 B2.
  destruct (arrives _ _ _ _ _ _ _ _ _ _ _ _ _ _ _ _ Iv Hf Hl Hd) as (t & T1 & T2 & T3 & T4 & T5 & _).
  pose proof (inv_rcv_same _ _ _ _ _ _ _ _ _ _ _ _ _ _ _ Iv Q) as Iv'.
  pose proof (wat_lt _ _ _ _ T1) as L.
  assert (O : la <= zlen g <= zlen w) by (destruct Iv; lia).
  assert (F : zlen w - la < 2 ^ 31) by (destruct Iv; assumption).
  rewrite T4 in *.
  rewrite seq_before in B1 by lia.
  rewrite seq_succ, seq_before in B2 by (unfold RQ_SIZE; lia).
  destruct Iv' as [V1 V2 V3 V4 V5 V6 V7 V8 V9 V10 V11 V12].
  constructor; auto.
  - rewrite rq_set_length. exact V7.
  - left. split; [reflexivity|]. split; [reflexivity|]. intros j d J E.
    destruct (Z.eq_dec (zlen g + j) (f_no fl)) as [X | X].
    + replace (slot (seq r0 s0 (zlen g) + j)) with (slot (seq r0 s0 (f_no fl))) in E.
      * rewrite rq_get_set_same in E by (rewrite V7; apply slot_lt). injection E as <-.
        exists t. rewrite X. auto.
      * rewrite <- (Z.add_0_r (seq r0 s0 (f_no fl))), !seq_slot. f_equal. lia.
    + rewrite rq_get_set_other in E.
      * destruct V8 as [(_ & _ & V8) | (V8 & _)]; [|discriminate]. eauto.
      * rewrite <- (Z.add_0_r (seq r0 s0 (f_no fl))), !seq_slot. intros Y.
        apply slot_inj in Y; lia.
Qed.

(* The queue, whatever the state. *)
Lemma queue_any : forall w n atr lb q, (forall k, rq_get q k = None) -> queue_ok w n atr lb q.
Proof. intros w n atr lb q H j d J E. rewrite H in E. discriminate. Qed.

(* ---- B sends acknowledgements ---- *)

(* B acknowledges only when it is in the run. *)
Lemma ack_good : forall w g rx ry nxy nyx now aw r0 s0 la ats lb atr q fl,
  inv_at w g rx ry nxy nyx now aw r0 s0 la ats lb atr q ->
  f_sent fl = now -> now < atr + ns da + ns dr + BILLION ->
  p_ackno (f_hdr fl) = lb -> f_got fl = zlen g ->
  good_ack (zlen g) now r0 s0 atr fl.
Proof.
  intros until fl. intros [] Hs Ht Hk Hg. split; [lia|]. left. rewrite Hg, Hk.
  destruct v_sync0 as [(H1 & H2 & H3) | (H1 & H2 & H3 & H4)].
  - split; [lia | exact H2].
  - apply idle in H4. unfold ns, BILLION in *. lia.
Qed.

End Invariant.
