From Coq Require Import List Arith NArith ZArith Bool Lia ZifyNat ZifyN ZifyBool.
From Verif Require Import Bytes FaModel FaSpec.
Import ListNotations.
Open Scope N_scope.

(** ** Messages *)
Lemma to_of_i8 : forall z, (-128 <= z < 128)%Z -> of_i8 (to_i8 z) = z.
Proof.
  intros z H. unfold of_i8, to_i8.
  destruct (Z.ltb_spec z 0).
  - replace (z mod 256)%Z with (z + 256)%Z by (apply Z.mod_unique with (-1)%Z; lia).
    destruct (N.ltb_spec (Z.to_N (z + 256)) 128); lia.
  - rewrite Z.mod_small by lia. destruct (N.ltb_spec (Z.to_N z) 128); lia.
Qed.
Lemma to_i8_byte : forall z, to_i8 z < 256.
Proof. intros. unfold to_i8. pose proof (Z.mod_pos_bound z 256). lia. Qed.

Definition hdr (sa re se code rs ece dl bw lo br mg ti cy av io : N) : list N :=
  be 8 sa ++ be 8 re ++ be 8 se ++ [code] ++ [rs] ++ be 2 ece ++ be 4 dl ++ be 8 bw ++
  be 4 lo ++ be 4 br ++ be 4 mg ++ be 4 ti ++ be 2 cy ++ [av] ++ [io].

Lemma hdr_length : forall sa re se code rs ece dl bw lo br mg ti cy av io,
  length (hdr sa re se code rs ece dl bw lo br mg ti cy av io) = fa_msg_size.
Proof. intros. unfold hdr. rewrite !app_length, !be_length. reflexivity. Qed.

Lemma enc_req_eq : forall eid own qs dst data,
  availability qs < 256 -> in_order qs < 256 ->
  enc_req eid own qs dst data =
  Some (hdr own 0 eid FLOW_REQ 0 0 (delay qs) (bandwidth qs) (loss qs) (ber qs) (max_gap qs)
            (timeout qs) (cypher_s qs) (availability qs) (in_order qs) ++ dst ++ data).
Proof.
  intros eid own qs dst data Ha Hi. unfold enc_req.
  rewrite <- (N.mod_small (availability qs) 256) at 2 by auto.
  rewrite <- (N.mod_small (in_order qs) 256) at 2 by auto.
  generalize (availability qs) (in_order qs); intros av io. reflexivity.
Qed.
Lemma enc_reply_eq : forall re se rs data,
  enc_reply re se rs data = Some (hdr 0 re se FLOW_REPLY (to_i8 rs) 0 0 0 0 0 0 0 0 0 0 ++ data).
Proof. intros. reflexivity. Qed.
Lemma enc_update_eq : forall re ece,
  enc_update re ece = Some (hdr 0 re 0 FLOW_UPDATE 0 ece 0 0 0 0 0 0 0 0 0).
Proof. intros. reflexivity. Qed.

Section Fields.
Variables (sa re se code rs ece dl bw lo br mg ti cy av io : N) (rest : list N).
Let buf := hdr sa re se code rs ece dl bw lo br mg ti cy av io ++ rest.
Lemma f_s_addr : g buf o_s_addr 8 = Some (unbe (be 8 sa)).
Proof. reflexivity. Qed.
Lemma f_r_eid : g buf o_r_eid 8 = Some (unbe (be 8 re)).
Proof. reflexivity. Qed.
Lemma f_s_eid : g buf o_s_eid 8 = Some (unbe (be 8 se)).
Proof. reflexivity. Qed.
Lemma f_code : g buf o_code 1 = Some (unbe [code]).
Proof. reflexivity. Qed.
Lemma f_response : g buf o_response 1 = Some (unbe [rs]).
Proof. reflexivity. Qed.
Lemma f_ece : g buf o_ece 2 = Some (unbe (be 2 ece)).
Proof. reflexivity. Qed.
Lemma f_delay : g buf o_delay 4 = Some (unbe (be 4 dl)).
Proof. reflexivity. Qed.
Lemma f_bandwidth : g buf o_bandwidth 8 = Some (unbe (be 8 bw)).
Proof. reflexivity. Qed.
Lemma f_loss : g buf o_loss 4 = Some (unbe (be 4 lo)).
Proof. reflexivity. Qed.
Lemma f_ber : g buf o_ber 4 = Some (unbe (be 4 br)).
Proof. reflexivity. Qed.
Lemma f_max_gap : g buf o_max_gap 4 = Some (unbe (be 4 mg)).
Proof. reflexivity. Qed.
Lemma f_timeout : g buf o_timeout 4 = Some (unbe (be 4 ti)).
Proof. reflexivity. Qed.
Lemma f_cypher_s : g buf o_cypher_s 2 = Some (unbe (be 2 cy)).
Proof. reflexivity. Qed.
Lemma f_availability : g buf o_availability 1 = Some (unbe [av]).
Proof. reflexivity. Qed.
Lemma f_in_order : g buf o_in_order 1 = Some (unbe [io]).
Proof. reflexivity. Qed.
End Fields.

Lemma unbe1 : forall b, unbe [b] = b.
Proof. intros. unfold unbe. cbn [rev app unle]. lia. Qed.

Definition qs_ok (qs : qosspec) : Prop :=
  delay qs < 2 ^ 32 /\ bandwidth qs < 2 ^ 64 /\ availability qs < 2 ^ 8 /\ loss qs < 2 ^ 32 /\
  ber qs < 2 ^ 32 /\ in_order qs < 2 ^ 8 /\ max_gap qs < 2 ^ 32 /\ cypher_s qs < 2 ^ 16 /\
  timeout qs < 2 ^ 32.

Lemma some_inj : forall (x y : list N), Some x = Some y -> x = y.
Proof. congruence. Qed.
Lemma len_ok : forall (buf : list N), (fa_msg_size <= length buf <= MSGBUFSZ)%nat ->
  Nat.ltb MSGBUFSZ (length buf) || Nat.ltb (length buf) fa_msg_size = false.
Proof.
  intros buf H. apply orb_false_iff. split; apply Nat.ltb_ge; lia.
Qed.

Lemma get_end : forall a b c : list N,
  get (a ++ b ++ c) (length a + length b) (length (a ++ b ++ c) - (length a + length b)) = Some c.
Proof.
  intros. rewrite app_assoc, <- app_length.
  replace ((a ++ b) ++ c) with ((a ++ b) ++ c ++ []) at 1 by (rewrite app_nil_r; reflexivity).
  apply get_app. rewrite !app_length. lia.
Qed.

Lemma dec_req : forall eid own qs dst data buf,
  qs_ok qs -> eid < 2 ^ 64 -> own < 2 ^ 64 ->
  enc_req eid own qs dst data = Some buf -> (length buf <= MSGBUFSZ)%nat ->
  dec (length dst) buf = Some (InReq dst qs data eid own).
Proof.
  intros eid own qs dst data buf (Q1 & Q2 & Q3 & Q4 & Q5 & Q6 & Q7 & Q8 & Q9) He Ho E L.
  rewrite enc_req_eq in E by auto. apply some_inj in E. subst buf.
  unfold dec. rewrite len_ok by (split; [rewrite app_length, hdr_length; lia|exact L]).
  rewrite f_code. cbn [bind]. rewrite unbe1. change (FLOW_REQ =? FLOW_REQ) with true. cbv iota.
  replace (Nat.ltb _ _) with false
    by (symmetry; apply Nat.ltb_ge; rewrite !app_length, hdr_length; lia).
  assert (Gd : forall sa re se code rs ece dl bw lo br mg ti cy av io,
     get (hdr sa re se code rs ece dl bw lo br mg ti cy av io ++ dst ++ data) fa_msg_size (length dst) = Some dst).
  { intros. rewrite <- (hdr_length sa re se code rs ece dl bw lo br mg ti cy av io).
    apply get_app. reflexivity. }
  rewrite Gd. cbn [bind]. clear Gd.
  match goal with |- context [hdr ?a1 ?a2 ?a3 ?a4 ?a5 ?a6 ?a7 ?a8 ?a9 ?b1 ?b2 ?b3 ?b4 ?b5 ?b6 ++ _] =>
    pose proof (get_end (hdr a1 a2 a3 a4 a5 a6 a7 a8 a9 b1 b2 b3 b4 b5 b6) dst data) as Gl end.
  rewrite hdr_length in Gl. rewrite Gl. cbn [bind]. clear Gl.
  rewrite f_delay, f_bandwidth, f_availability, f_loss, f_ber, f_in_order, f_max_gap, f_cypher_s,
    f_timeout, f_s_eid, f_s_addr. cbn [bind].
  rewrite !unbe1, !unbe_be by auto. destruct qs; reflexivity.
Qed.

Lemma dec_reply : forall hl re se rs data buf,
  re < 2 ^ 64 -> se < 2 ^ 64 ->
  enc_reply re se rs data = Some buf -> (length buf <= MSGBUFSZ)%nat ->
  dec hl buf = Some (InReply re se (of_i8 (to_i8 rs)) data).
Proof.
  intros hl re se rs data buf Hr Hs E L. rewrite enc_reply_eq in E. apply some_inj in E. subst buf.
  unfold dec. rewrite len_ok by (split; [rewrite app_length, hdr_length; lia|exact L]).
  rewrite f_code. cbn [bind]. rewrite unbe1.
  change (FLOW_REPLY =? FLOW_REQ) with false. change (FLOW_REPLY =? FLOW_REPLY) with true. cbv iota.
  match goal with |- context [hdr ?a1 ?a2 ?a3 ?a4 ?a5 ?a6 ?a7 ?a8 ?a9 ?b1 ?b2 ?b3 ?b4 ?b5 ?b6 ++ _] =>
    pose proof (get_end (hdr a1 a2 a3 a4 a5 a6 a7 a8 a9 b1 b2 b3 b4 b5 b6) [] data) as Gl end.
  rewrite hdr_length in Gl. cbn [app length] in Gl. rewrite Nat.add_0_r in Gl.
  rewrite Gl. cbn [bind]. clear Gl.
  rewrite f_r_eid, f_s_eid, f_response. cbn [bind].
  rewrite !unbe1, !unbe_be by auto. reflexivity.
Qed.

Lemma dec_update : forall hl re ece buf,
  re < 2 ^ 64 -> ece < 2 ^ 16 ->
  enc_update re ece = Some buf -> dec hl buf = Some (InUpdate re ece).
Proof.
  intros hl re ece buf Hr He E. rewrite enc_update_eq in E. apply some_inj in E. subst buf.
  unfold dec. rewrite len_ok by (rewrite hdr_length; unfold MSGBUFSZ, fa_msg_size; lia).
  pose proof (app_nil_r (hdr 0 re 0 FLOW_UPDATE 0 ece 0 0 0 0 0 0 0 0 0)) as En.
  rewrite <- En. rewrite f_code. cbn [bind]. rewrite unbe1.
  change (FLOW_UPDATE =? FLOW_REQ) with false. change (FLOW_UPDATE =? FLOW_REPLY) with false.
  change (FLOW_UPDATE =? FLOW_UPDATE) with true. cbv iota.
  rewrite f_r_eid, f_ece. cbn [bind]. rewrite !unbe_be by auto. reflexivity.
Qed.

(** ** The table *)
Record Inv (f : flows) (l : live) : Prop := {
  inv_live : forall e fd, In (e, fd) l ->
    fd_ok fd /\ e mod 2 ^ 32 = fd /\ s_eid (f fd) = e /\ ctx (f fd) = true;
  inv_other : forall fd, fd_ok fd ->
    In (s_eid (f fd), fd) l \/ s_eid (f fd) mod 2 ^ 32 <> fd;
  inv_res : forall fd, ~ fd_ok fd -> f fd = mk_flow 0 0 0 false
}.

Lemma to_i32_small : forall e, e mod 2 ^ 32 < 2 ^ 31 -> to_i32 e = Z.of_N (e mod 2 ^ 32).
Proof. intros e H. unfold to_i32. destruct (N.ltb_spec (e mod 2 ^ 32) (2 ^ 31)); [reflexivity|lia]. Qed.

Lemma eid_to_fd_some : forall f e fd,
  eid_to_fd f e = Some fd <-> (e mod 2 ^ 32 = fd /\ fd < 4096 /\ s_eid (f fd) = e).
Proof.
  intros f e fd. unfold eid_to_fd. unfold PROG_MAX_FLOWS.
  pose proof (N.mod_lt e (2 ^ 32) ltac:(discriminate)) as Hm.
  unfold to_i32. set (y := e mod 2 ^ 32) in *. clearbody y.
  change (2 ^ 32) with 4294967296 in *. change (2 ^ 31) with 2147483648 in *.
  change (2 ^ 32)%Z with 4294967296%Z in *.
  destruct (N.ltb_spec y 2147483648) as [L|L].
  - destruct (Z.ltb_spec (Z.of_N y) 0); [lia|]. cbn [orb].
    destruct (Z.leb_spec 4096 (Z.of_N y)).
    + split; [discriminate|]. lia.
    + rewrite N2Z.id. destruct (N.eqb_spec (s_eid (f y)) e) as [Es|Es].
      * split; [intros [= <-]; split; [reflexivity|split; [lia|exact Es]]|].
        intros (-> & _ & _). reflexivity.
      * split; [discriminate|]. intros (-> & _ & ?). congruence.
  - destruct (Z.ltb_spec (Z.of_N y - 4294967296) 0); [|lia]. cbn [orb].
    split; [discriminate|]. lia.
Qed.

Lemma owner_in : forall l e fd, owner l e = Some fd -> In (e, fd) l.
Proof.
  intros l e fd H. unfold owner in H. destruct (find _ l) as [[e' fd']|] eqn:E; [|discriminate].
  apply find_some in E. destruct E as [Hi Hb]. cbn [fst] in Hb. apply N.eqb_eq in Hb.
  cbn in H. injection H as <-. subst. exact Hi.
Qed.
Lemma owner_none : forall l e fd, owner l e = None -> ~ In (e, fd) l.
Proof.
  intros l e fd H Hi. unfold owner in H. destruct (find _ l) eqn:E; [discriminate|].
  apply (find_none _ _ E) in Hi. cbn [fst] in Hi. rewrite N.eqb_refl in Hi. discriminate.
Qed.

Lemma lookup_ok : forall f l e, Inv f l -> e <> 0 -> eid_to_fd f e = owner l e.
Proof.
  intros f l e I Hz. destruct (owner l e) as [fd|] eqn:Eo.
  - apply owner_in in Eo. destruct (inv_live _ _ I _ _ Eo) as (Hf & Hm & Hs & _).
    apply eid_to_fd_some. unfold fd_ok in Hf. lia.
  - destruct (eid_to_fd f e) as [fd|] eqn:E; [exfalso|reflexivity].
    apply eid_to_fd_some in E. destruct E as (Hm & L & Hs).
    destruct (N.lt_ge_cases fd 64) as [Lf|Lf].
    + rewrite (inv_res _ _ I) in Hs by (unfold fd_ok; lia). cbn in Hs. congruence.
    + destruct (inv_other _ _ I fd ltac:(unfold fd_ok; lia)) as [Hi|Hi].
      * rewrite Hs in Hi. exact (owner_none _ _ _ Eo Hi).
      * rewrite Hs in Hi. contradiction.
Qed.

Lemma in_close : forall l fd e k, In (e, k) (close l fd) <-> In (e, k) l /\ k <> fd.
Proof.
  intros. unfold close. rewrite filter_In. cbn [snd]. split; intros [A B]; split; auto; lia.
Qed.

Lemma upd_same : forall f fd x, upd f fd x fd = x.
Proof. intros. unfold upd. rewrite N.eqb_refl. reflexivity. Qed.
Lemma upd_other : forall f fd x k, k <> fd -> upd f fd x k = f k.
Proof. intros. unfold upd. destruct (N.eqb_spec k fd); [contradiction|reflexivity]. Qed.

Lemma inv_close : forall f l fd x, Inv f l -> fd_ok fd -> s_eid x mod 2 ^ 32 <> fd ->
  Inv (upd f fd x) (close l fd).
Proof.
  intros f l fd x I Hf Hx. constructor.
  - intros e k Hi. apply in_close in Hi. destruct Hi as [Hi Hk].
    rewrite upd_other by auto. exact (inv_live _ _ I _ _ Hi).
  - intros k Hk. destruct (N.eq_dec k fd) as [->|Hn].
    + right. rewrite upd_same. exact Hx.
    + rewrite upd_other by auto. destruct (inv_other _ _ I k Hk) as [Hi|Hi]; [left|right; exact Hi].
      apply in_close. auto.
  - intros k Hk. rewrite upd_other by (intros ->; contradiction). exact (inv_res _ _ I k Hk).
Qed.
Lemma inv_add : forall f l fd x, Inv f l -> fd_ok fd -> s_eid x mod 2 ^ 32 = fd -> ctx x = true ->
  Inv (upd f fd x) ((s_eid x, fd) :: close l fd).
Proof.
  intros f l fd x I Hf Hx Hc. constructor.
  - intros e k [E|Hi].
    + injection E as <- <-. rewrite upd_same. auto.
    + apply in_close in Hi. destruct Hi as [Hi Hk].
      rewrite upd_other by auto. exact (inv_live _ _ I _ _ Hi).
  - intros k Hk. destruct (N.eq_dec k fd) as [->|Hn].
    + left. rewrite upd_same. left. reflexivity.
    + rewrite upd_other by auto. destruct (inv_other _ _ I k Hk) as [Hi|Hi]; [left|right; exact Hi].
      right. apply in_close. auto.
  - intros k Hk. rewrite upd_other by (intros ->; contradiction). exact (inv_res _ _ I k Hk).
Qed.
(** Changing the remote side of a flow. *)
Lemma inv_same : forall f l fd x, Inv f l -> fd_ok fd ->
  s_eid x = s_eid (f fd) -> ctx x = ctx (f fd) -> Inv (upd f fd x) l.
Proof.
  intros f l fd x I Hf Hs Hc. constructor.
  - intros e k Hi. pose proof (inv_live _ _ I _ _ Hi) as P. destruct (N.eq_dec k fd) as [->|Hn].
    + rewrite upd_same, Hs, Hc. exact P.
    + rewrite upd_other by auto. exact P.
  - intros k Hk. pose proof (inv_other _ _ I k Hk) as P. destruct (N.eq_dec k fd) as [->|Hn].
    + rewrite upd_same, Hs. exact P.
    + rewrite upd_other by auto. exact P.
  - intros k Hk. rewrite upd_other by (intros ->; contradiction). exact (inv_res _ _ I k Hk).
Qed.

Lemma minus1_mod : forall fd, fd_ok fd -> MINUS1 mod 2 ^ 32 <> fd.
Proof. intros fd H. unfold fd_ok in H. change (MINUS1 mod 2 ^ 32) with 4294967295. lia. Qed.
Lemma gen_eid_eq : forall fa_eid r fd, r < 2 ^ 32 -> fd_ok fd ->
  gen_eid fa_eid (Some r) fd = r * 2 ^ 32 + fd /\ (r * 2 ^ 32 + fd) mod 2 ^ 32 = fd.
Proof.
  intros fa_eid r fd Hr Hf. unfold gen_eid, fd_ok in *. split.
  - apply N.mod_small. change (2 ^ 64) with (2 ^ 32 * 2 ^ 32). change (2 ^ 32) with 4294967296 in *. lia.
  - rewrite N.add_comm, N.mod_add by discriminate. apply N.mod_small.
    change (2 ^ 32) with 4294967296. lia.
Qed.

Lemma inv_open : forall fa_eid f l fd rnd re sa, fa_eid < 64 -> Inv f l -> fd_ok fd -> rnd_ok rnd ->
  Inv (upd f fd (mk_flow (gen_eid fa_eid rnd fd) re sa true)) (open l fd rnd).
Proof.
  intros fa_eid f l fd rnd re sa Hfa I Hf Hr. destruct rnd as [r|]; cbn [open rnd_ok] in *.
  - destruct (gen_eid_eq fa_eid r fd Hr Hf) as [E M].
    rewrite E. apply (inv_add f l fd (mk_flow (r * 2 ^ 32 + fd) re sa true)); auto.
  - apply inv_close; auto. cbn [s_eid gen_eid]. unfold fd_ok in Hf.
    rewrite N.mod_small; [lia|]. change (2 ^ 32) with 4294967296. lia.
Qed.

Lemma upd_upd : forall f fd x y, forall k, upd (upd f fd x) fd y k = upd f fd y k.
Proof. intros. unfold upd. destruct (k =? fd); reflexivity. Qed.
Lemma inv_ext : forall f g l, (forall k, f k = g k) -> Inv f l -> Inv g l.
Proof.
  intros f h l E I. constructor.
  - intros e fd Hi. rewrite <- E. exact (inv_live _ _ I _ _ Hi).
  - intros fd Hk. rewrite <- E. exact (inv_other _ _ I _ Hk).
  - intros fd Hk. rewrite <- E. exact (inv_res _ _ I _ Hk).
Qed.

Lemma step_ok : forall fa_eid f l o, fa_eid < 64 -> Inv f l -> op_ok o -> ~ names_zero o ->
  exists f', step fa_eid f o = Some (f', snd (spec_step l o)) /\ Inv f' (fst (spec_step l o)).
Proof.
  intros fa_eid f l o Hfa I Ho Hz. destruct o; cbn [step spec_step op_ok names_zero fst snd] in *.
  - destruct Ho as [Hf Hr]. destruct sent; eexists; (split; [reflexivity|]); auto.
    unfold alloc_commit, flow_init. rewrite !upd_same. cbn [r_eid ctx].
    eapply inv_ext; [intros k; symmetry; apply upd_upd|]. apply inv_open; auto.
  - destruct Ho as [Hf Hr]. eexists; (split; [reflexivity|]).
    unfold flow_init. rewrite !upd_same. cbn [r_eid ctx].
    eapply inv_ext; [intros k; symmetry; apply upd_upd|]. apply inv_open; auto.
  - unfold to_owner. rewrite (lookup_ok f l re I Hz). destruct (owner l re) as [fd|] eqn:Eo.
    + apply owner_in in Eo. destruct (inv_live _ _ I _ _ Eo) as (Hf & _).
      destruct (response <? 0)%Z; eexists; (split; [reflexivity|]).
      * unfold flow_fini. eapply inv_ext; [intros k; symmetry; apply upd_upd|].
        apply inv_close; auto. apply minus1_mod; auto.
      * apply inv_same; auto.
    + eexists; split; [reflexivity|exact I].
  - unfold to_owner. rewrite (lookup_ok f l re I Hz). destruct (owner l re) as [fd|] eqn:Eo.
    + apply owner_in in Eo. destruct (inv_live _ _ I _ _ Eo) as (_ & _ & _ & ->).
      eexists; split; [reflexivity|exact I].
    + eexists; split; [reflexivity|exact I].
  - destruct waited, sent; cbn [negb andb orb]; try (eexists; split; [reflexivity|]; auto; fail).
    + destruct (response <? 0)%Z; eexists; (split; [reflexivity|]); auto.
      apply inv_close; auto. apply minus1_mod; auto.
    + eexists; (split; [reflexivity|]). apply inv_close; auto. apply minus1_mod; auto.
  - destruct fini; eexists; (split; [reflexivity|]); auto.
    apply inv_close; auto. apply minus1_mod; auto.
  - unfold to_owner. rewrite (lookup_ok f l eid I) by lia. destruct (owner l eid) as [fd|] eqn:Eo.
    + apply owner_in in Eo. destruct (inv_live _ _ I _ _ Eo) as (_ & _ & _ & ->).
      eexists; split; [reflexivity|exact I].
    + eexists; split; [reflexivity|exact I].
Qed.

Lemma inv0 : Inv flows0 [].
Proof.
  constructor.
  - intros e fd [].
  - intros fd H. right. unfold fd_ok in H. cbn [flows0 s_eid].
    rewrite N.mod_0_l by discriminate. lia.
  - reflexivity.
Qed.

Lemma run_ok : forall fa_eid ops f l, fa_eid < 64 -> Inv f l ->
  Forall op_ok ops -> Forall (fun o => ~ names_zero o) ops ->
  exists f', run fa_eid f ops = Some (f', spec_run l ops).
Proof.
  induction ops as [|o ops IH]; intros f l Hfa I Ho Hz; cbn [run spec_run].
  - eauto.
  - inversion Ho; inversion Hz; subst.
    destruct (step_ok fa_eid f l o Hfa I) as (f1 & -> & I1); auto.
    cbn [bind]. destruct (spec_step l o) as [l1 r] eqn:Es. cbn [fst snd] in *.
    destruct (IH f1 l1 Hfa I1) as (f2 & ->); auto. cbn [bind]. eauto.
Qed.

(** Ids are never shared. *)
Lemma spec_unique : forall ops l,
  NoDup (map fst l) -> (forall e fd, In (e, fd) l -> e mod 2 ^ 32 = fd /\ fd_ok fd) -> Forall op_ok ops ->
  let l' := fold_left (fun l o => fst (spec_step l o)) ops l in
  NoDup (map fst l') /\ (forall e fd, In (e, fd) l' -> e mod 2 ^ 32 = fd /\ fd_ok fd).
Proof.
  assert (Hclose : forall l fd, NoDup (map fst l) -> NoDup (map fst (close l fd))).
  { induction l as [|p l IH]; intros fd H; [constructor|]. inversion H; subst.
    unfold close. cbn [filter]. fold (close l fd). specialize (IH fd H3).
    destruct (negb (snd p =? fd)); [|exact IH]. cbn [map]. constructor; [|exact IH].
    rewrite in_map_iff. intros ([e k] & E & Hi). apply in_close in Hi.
    apply H2. apply in_map_iff. exists (e, k). tauto. }
  assert (Hopen : forall l fd rnd, fd_ok fd -> rnd_ok rnd -> NoDup (map fst l) ->
     (forall e k, In (e, k) l -> e mod 2 ^ 32 = k /\ fd_ok k) ->
     NoDup (map fst (open l fd rnd)) /\ (forall e k, In (e, k) (open l fd rnd) -> e mod 2 ^ 32 = k /\ fd_ok k)).
  { intros l fd rnd Hf Hr Hn Hp. destruct rnd as [r|]; cbn [open].
    - destruct (gen_eid_eq 0 r fd Hr Hf) as [_ M]. cbn [map fst]. split.
      + constructor; [|auto]. rewrite in_map_iff. intros ([e k] & E & Hi). cbn [fst] in E. subst e.
        apply in_close in Hi. destruct Hi as [Hi Hk]. apply Hp in Hi. destruct Hi as [Hi _]. congruence.
      + intros e k [E|Hi]; [injection E as <- <-; auto|]. apply in_close in Hi. apply Hp. tauto.
    - split; [auto|]. intros e k Hi. apply in_close in Hi. apply Hp. tauto. }
  assert (Hc2 : forall l fd, (forall e k, In (e, k) l -> e mod 2 ^ 32 = k /\ fd_ok k) ->
     (forall e k, In (e, k) (close l fd) -> e mod 2 ^ 32 = k /\ fd_ok k)).
  { intros l fd Hp e k Hi. apply in_close in Hi. apply Hp. tauto. }
  induction ops as [|o ops IH]; intros l Hn Hp Ho; cbn [fold_left].
  - auto.
  - inversion Ho; subst. cbv zeta. apply IH; auto; destruct o; cbn [spec_step fst op_ok] in *;
      repeat match goal with
      | H : _ /\ _ |- _ => destruct H
      | |- context [match ?x with _ => _ end] => destruct x
      end; auto; try (apply Hopen; auto; fail); try (apply Hc2; auto; fail).
Qed.
