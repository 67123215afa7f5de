From Coq Require Import List NArith ZArith Bool Lia ZifyBool ZifyNat ZifyN.
From Verif Require Import DuBuffModel DuBuffSpec.
Import ListNotations.
Open Scope N_scope.

Lemma wr_below bs : forall m off i, i < off -> wr m off bs i = m i.
Proof.
  induction bs as [|b t IH]; intros m off i H; cbn [wr]; [reflexivity|].
  rewrite IH by lia. destruct (N.eqb_spec i off); [lia|reflexivity].
Qed.
Lemma wr_above bs : forall m off i, off + blen bs <= i -> wr m off bs i = m i.
Proof.
  unfold blen. induction bs as [|b t IH]; intros m off i H; cbn [wr length] in *; [reflexivity|].
  rewrite IH by lia. destruct (N.eqb_spec i off); [lia|reflexivity].
Qed.
Lemma rd_ext m m' : forall n off, (forall i, off <= i -> i < off + N.of_nat n -> m i = m' i) -> rd m off n = rd m' off n.
Proof.
  induction n as [|n IH]; intros off H; cbn [rd]; [reflexivity|].
  f_equal; [apply H; lia|]. apply IH. intros; apply H; lia.
Qed.
Lemma rd_wr bs : forall m off, rd (wr m off bs) off (length bs) = bs.
Proof.
  induction bs as [|b t IH]; intros m off; cbn [wr rd length]; [reflexivity|].
  f_equal; [|apply IH]. rewrite wr_below by lia. rewrite N.eqb_refl. reflexivity.
Qed.
Lemma rd_app m : forall a b off, rd m off (a + b) = rd m off a ++ rd m (off + N.of_nat a) b.
Proof.
  induction a as [|a IH]; intros b off; cbn [Nat.add rd app].
  - f_equal. lia.
  - f_equal. rewrite IH. do 2 f_equal. lia.
Qed.
Lemma rd_length m : forall n off, length (rd m off n) = n.
Proof. induction n; intros; cbn [rd length]; auto. Qed.

Definition rep (s : sdb) (p : packet) : Prop :=
  du_head s = front p /\ du_tail s = front p + blen (bytes p) /\
  size s = front p + blen (bytes p) + back p /\ size s < 2 ^ 63 /\
  rd (mem s) (du_head s) (length (bytes p)) = bytes p.

Lemma firstn_rd m off a n : (a <= n)%nat -> firstn a (rd m off n) = rd m off a.
Proof.
  intros H. replace n with (a + (n - a))%nat by lia. rewrite rd_app.
  rewrite firstn_app, rd_length, Nat.sub_diag. cbn [firstn]. rewrite app_nil_r.
  rewrite firstn_all2; [reflexivity|rewrite rd_length; lia].
Qed.
Lemma skipn_rd m off a n : (a <= n)%nat -> skipn a (rd m off n) = rd m (off + N.of_nat a) (n - a).
Proof.
  intros H. replace n with (a + (n - a))%nat at 1 by lia. rewrite rd_app.
  rewrite skipn_app, rd_length, Nat.sub_diag. cbn [skipn].
  rewrite skipn_all2; [reflexivity|rewrite rd_length; lia].
Qed.

Lemma firstn_c m off c a : rd m off (length c) = c -> (a <= length c)%nat -> firstn a c = rd m off a.
Proof. intros E L. rewrite <- (firstn_rd m off a (length c) L). rewrite E. reflexivity. Qed.
Lemma skipn_c m off c a : rd m off (length c) = c -> (a <= length c)%nat ->
  skipn a c = rd m (off + N.of_nat a) (length c - a).
Proof. intros E L. rewrite <- (skipn_rd m off a (length c) L). rewrite E. reflexivity. Qed.

Lemma step_refines s p o : rep s p -> reasonable o ->
  match spec_step p o with
  | Some (p', r) => exists s', step s o = Some (s', r) /\ rep s' p'
  | None => (exists n, o = Truncate n) \/ step s o = None
  end.
Proof.
  intros (H1 & H2 & H3 & H4 & H5) R. destruct s as [sz hd tl m]. cbn [size du_head du_tail mem] in *. subst hd.
  destruct p as [fr c bk]. cbn [front bytes back] in *. unfold blen in *.
  destruct o as [bs|bs|n|n| | |n]; cbn [spec_step step front bytes back reasonable] in *; unfold blen, du_len in *;
    cbn [size du_head du_tail mem].
  - unfold head_alloc; cbn [size du_head du_tail mem].
    destruct (N.leb_spec (N.of_nat (length bs)) fr) as [L|L].
    + destruct (N.ltb_spec fr (N.of_nat (length bs))); [lia|]. eexists. split; [reflexivity|].
      unfold rep, blen; cbn [size du_head du_tail mem front bytes back]. rewrite app_length.
      split; [reflexivity|]. split; [lia|]. split; [lia|]. split; [assumption|].
      rewrite rd_app, rd_wr. f_equal. rewrite <- H5 at 2.
      replace (fr - N.of_nat (length bs) + N.of_nat (length bs)) with fr by lia.
      apply rd_ext. intros. apply wr_above. unfold blen. lia.
    + destruct (N.ltb_spec fr (N.of_nat (length bs))); [|lia]. eexists. split; [reflexivity|].
      unfold rep, blen; cbn [size du_head du_tail mem front bytes back]. auto.
  - unfold tail_alloc; cbn [size du_head du_tail mem].
    rewrite N.mod_small by (unfold two64; lia).
    destruct (N.ltb_spec (N.of_nat (length bs)) bk) as [L|L].
    + destruct (N.leb_spec sz (tl + N.of_nat (length bs))); [lia|]. eexists. split; [reflexivity|].
      unfold rep, blen; cbn [size du_head du_tail mem front bytes back]. rewrite app_length.
      split; [reflexivity|]. split; [lia|]. split; [lia|]. split; [assumption|].
      rewrite rd_app. rewrite <- H2, rd_wr. f_equal. rewrite <- H5 at 2.
      apply rd_ext. intros. apply wr_below. lia.
    + destruct (N.leb_spec sz (tl + N.of_nat (length bs))); [|lia]. eexists. split; [reflexivity|].
      unfold rep, blen; cbn [size du_head du_tail mem front bytes back]. auto.
  - unfold head_release; cbn [size du_head du_tail mem].
    destruct (N.leb_spec n (N.of_nat (length c))) as [L|L].
    + destruct (N.ltb_spec (tl - fr) n); [lia|]. eexists. split.
      * do 3 f_equal. rewrite (firstn_c m fr c) by (auto; lia). reflexivity.
      * unfold rep, blen; cbn [size du_head du_tail mem front bytes back]. rewrite skipn_length.
        split; [reflexivity|]. split; [lia|]. split; [lia|]. split; [assumption|].
        rewrite (skipn_c m fr c) by (auto; lia). f_equal. lia.
    + right. destruct (N.ltb_spec (tl - fr) n); [reflexivity|lia].
  - unfold tail_release; cbn [size du_head du_tail mem].
    destruct (N.leb_spec n (N.of_nat (length c))) as [L|L].
    + destruct (N.ltb_spec (tl - fr) n); [lia|]. eexists. split.
      * do 3 f_equal. rewrite (skipn_c m fr c) by (auto; lia). f_equal; lia.
      * unfold rep, blen; cbn [size du_head du_tail mem front bytes back]. rewrite firstn_length_le by lia.
        split; [reflexivity|]. split; [lia|]. split; [lia|]. split; [assumption|].
        rewrite (firstn_c m fr c) by (auto; lia). reflexivity.
    + right. destruct (N.ltb_spec (tl - fr) n); [reflexivity|lia].
  - eexists. split; [do 3 f_equal; lia|]. unfold rep, blen; cbn [size du_head du_tail mem front bytes back]. auto.
  - eexists. split.
    + do 3 f_equal. replace (N.to_nat (tl - fr)) with (length c) by lia. exact H5.
    + unfold rep, blen; cbn [size du_head du_tail mem front bytes back]. auto.
  - unfold truncate; cbn [size du_head du_tail mem].
    destruct (N.leb_spec n (N.of_nat (length c))) as [L|L].
    + destruct (N.ltb_spec sz n); [lia|]. eexists. split; [reflexivity|].
      unfold rep, blen; cbn [size du_head du_tail mem front bytes back]. rewrite firstn_length_le by lia.
      split; [reflexivity|]. split; [lia|]. split; [lia|]. split; [assumption|].
      rewrite (firstn_c m fr c) by (auto; lia). reflexivity.
    + left. eauto.
Qed.

Lemma run_refines ops : forall s p, rep s p -> Forall reasonable ops ->
  forall rs, spec_run p ops = Some rs ->
  exists s', run s ops = Some (s', rs) /\ du_head s' <= du_tail s' /\ du_tail s' <= size s' /\ size s' = size s.
Proof.
  induction ops as [|o ops IH]; intros s p H F rs E; cbn [run spec_run] in *.
  - injection E as <-. exists s. destruct H as (A & B & C & _). repeat split; lia.
  - inversion F as [|? ? F1 F2]; subst. pose proof (step_refines s p o H F1) as S.
    destruct (spec_step p o) as [[p' r]|]; [|discriminate]. destruct S as (s' & E1 & H').
    destruct (spec_run p' ops) as [rs'|] eqn:E2; [|discriminate]. injection E as <-.
    destruct (IH s' p' H' F2 rs' E2) as (s2 & E3 & A & B & C). rewrite E1, E3. exists s2.
    repeat split; auto. rewrite C. clear - E1. destruct o; cbn in E1;
      unfold head_alloc, tail_alloc, head_release, tail_release, truncate in E1.
    all: repeat (match type of E1 with context [if ?b then _ else _] => destruct b end; cbn in E1; try discriminate);
      injection E1 as <- _; reflexivity.
Qed.

Lemma rep_new m payload : blen payload < 2 ^ 62 -> rep (new_packet m payload) (mk_packet 256 payload 32).
Proof.
  intros H. unfold rep, new_packet; cbn [size du_head du_tail mem front bytes back].
  unfold DU_BUFF_HEADSPACE, DU_BUFF_TAILSPACE.
  split; [reflexivity|]. split; [reflexivity|]. split; [lia|]. split; [lia|]. apply rd_wr.
Qed.

(** Without Truncate, the two agree on failures as well. *)
Definition no_trunc (o : op) : Prop := match o with Truncate _ => False | _ => True end.
Lemma run_equal ops : forall s p, rep s p -> Forall reasonable ops -> Forall no_trunc ops ->
  option_map snd (run s ops) = spec_run p ops.
Proof.
  induction ops as [|o ops IH]; intros s p H F G; cbn [run spec_run]; [reflexivity|].
  inversion F as [|? ? F1 F2]; inversion G as [|? ? G1 G2]; subst.
  pose proof (step_refines s p o H F1) as S. destruct (spec_step p o) as [[p' r]|].
  - destruct S as (s' & E1 & H'). rewrite E1. specialize (IH s' p' H' F2 G2). rewrite <- IH.
    destruct (run s' ops) as [[s2 rs]|]; reflexivity.
  - destruct S as [(n & ->)|E]; [destruct G1|]. rewrite E. reflexivity.
Qed.

Lemma c10 m payload ops : blen payload < 2 ^ 62 -> Forall reasonable ops ->
  forall rs, spec_run (mk_packet 256 payload 32) ops = Some rs ->
  exists s', run (new_packet m payload) ops = Some (s', rs) /\
             du_head s' <= du_tail s' /\ du_tail s' <= 256 + blen payload + 32.
Proof.
  intros H F rs E. destruct (run_refines ops _ _ (rep_new m payload H) F rs E) as (s' & E1 & A & B & C).
  exists s'. split; auto. split; auto. rewrite C in B.
  cbn [new_packet size] in B. unfold DU_BUFF_HEADSPACE, DU_BUFF_TAILSPACE in B. lia.
Qed.
