(** The messages to and from the IRMd survive being packed and unpacked. *)
From Coq Require Import NArith ZArith List Bool Lia ZifyBool ZifyNat ZifyN.
From Verif Require Import WireModel WireProofs EnrollModel EnrollSpec EnrollProps IrmModel IrmSpec.
Import ListNotations.
Local Open Scope N_scope.
Local Opaque put_varint.

(** * Numbers *)
Lemma zz_lt : forall z, int32 z -> zz z < 2 ^ 32.
Proof.
  intros z H. unfold int32 in H. unfold zz. change (2 ^ 31)%Z with 2147483648%Z in H. change (2 ^ 32) with 4294967296.
  destruct (z <? 0)%Z eqn:E; lia.
Qed.
Lemma unzz_zz : forall z, int32 z -> unzz (zz z) = z.
Proof.
  intros z H. unfold unzz. rewrite u32_small by (apply zz_lt; exact H). unfold zz, int32 in *.
  change (2 ^ 31)%Z with 2147483648%Z in H.
  destruct (Z.ltb_spec z 0) as [N|N]; rewrite Z2N.id by lia.
  - replace (- 2 * z - 1)%Z with (1 + 2 * (- z - 1))%Z by lia. rewrite Z.even_add_mul_2. cbn [Z.even].
    replace (1 + 2 * (- z - 1))%Z with ((- z - 1) * 2 + 1)%Z by lia. rewrite Z.div_add_l by lia. change (1 / 2)%Z with 0%Z. lia.
  - replace (2 * z)%Z with (0 + 2 * z)%Z by lia. rewrite Z.even_add_mul_2. cbn [Z.even].
    replace (0 + 2 * z)%Z with (z * 2)%Z by lia. apply Z.div_mul. lia.
Qed.
Lemma w32_lt : forall z, w32 z < 2 ^ 32.
Proof.
  intros. unfold w32. pose proof (Z.mod_pos_bound z (2 ^ 32) eq_refl).
  change (2 ^ 32) with (Z.to_N (2 ^ 32)). apply Z2N.inj_lt; lia.
Qed.
Lemma w64_lt : forall z, w64 z < 2 ^ 64.
Proof. intros. apply (sext_lt z). Qed.
Lemma i32_w32 : forall z, int32 z -> i32 (w32 z) = z.
Proof.
  intros z H. unfold i32. rewrite u32_small by apply w32_lt. unfold w32, int32 in *.
  pose proof (Z.mod_pos_bound z (2 ^ 32) eq_refl). rewrite Z2N.id by lia.
  assert (P : (2 ^ 32 = 4294967296)%Z) by reflexivity. assert (Q : (2 ^ 31 = 2147483648)%Z) by reflexivity.
  rewrite P, Q in *. destruct (Z.ltb_spec (z mod 4294967296) 2147483648);
  pose proof (Z.div_mod z 4294967296 ltac:(lia)); lia.
Qed.
Lemma w32_id : forall z, good_mpl z -> Z.of_N (w32 z) = z.
Proof. intros z H. unfold good_mpl in H. unfold w32. rewrite Z.mod_small by lia. apply Z2N.id. lia. Qed.
Lemma i64_w64 : forall z, (- 2 ^ 63 <= z < 2 ^ 63)%Z -> i64 (w64 z) = z.
Proof. intros. apply (i64_sext z). assumption. Qed.
Lemma w32_nsec : forall z, (0 <= z < 1000000000)%Z -> Z.of_N (w32 z) = z.
Proof. intros. apply w32_id. unfold good_mpl. change (2 ^ 32)%Z with 4294967296%Z. lia. Qed.

Lemma lt3264 : forall n, n < 2 ^ 32 -> n < 2 ^ 64.
Proof. intros n H. eapply N.lt_trans; [exact H|reflexivity]. Qed.

(** * Fields *)
Definition num_ok (f : field) : Prop :=
  fst f < 2 ^ 28 /\ match snd f with WVar n => n < 2 ^ 64 | WLen _ => True | _ => False end.

Lemma pack_app : forall a b, pack (a ++ b) = pack a ++ pack b.
Proof. intros. unfold pack. apply flat_map_app. Qed.
Lemma len_in_pack : forall fs t l, In (t, WLen l) fs -> (length l < length (pack fs))%nat.
Proof.
  induction fs as [|f fs IH]; intros t l I; [elim I|]. rewrite pack_cons, app_length. destruct I as [->|I].
  - cbn [put_field]. rewrite !app_length. pose proof (put_len10 (8 * t + 2)). lia.
  - specialize (IH _ _ I). lia.
Qed.
Lemma ok_fields : forall fs, Forall num_ok fs -> N.of_nat (length (pack fs)) <= INT_MAX -> Forall ok_field fs.
Proof.
  intros fs H L. rewrite Forall_forall in *. intros [t v] I. destruct (H _ I) as [A B]. split; [exact A|].
  cbn [snd] in *. destruct v; try (elim B; fail); [exact B|]. pose proof (len_in_pack _ _ _ I). lia.
Qed.

(** ** Which tags are there *)
Definition without (t : N) (fs : list field) : Prop := Forall (fun f => fst f <> t) fs.
Lemma without_app : forall t a b, without t a -> without t b -> without t (a ++ b).
Proof. intros. apply Forall_app. split; assumption. Qed.
Lemma without_num : forall t t' o, t' <> t -> without t (onum t' o).
Proof. intros t t' [n|] H; [repeat constructor; exact H|constructor]. Qed.
Lemma without_len : forall t t' o, t' <> t -> without t (olen t' o).
Proof. intros t t' [n|] H; [repeat constructor; exact H|constructor]. Qed.
Lemma without_rep : forall t t' l, t' <> t -> without t (rlen t' l).
Proof. intros t t' l H. induction l; constructor; [exact H|assumption]. Qed.
Lemma without_one : forall t t' v, t' <> t -> without t [(t', v)].
Proof. intros. repeat constructor. assumption. Qed.

Lemma num_skip : forall t a b, without t a -> num_field t (a ++ b) = num_field t b.
Proof.
  intros t a b H. induction H as [|[t' v] a E _ IH]; [reflexivity|]. cbn [app num_field]. rewrite IH. cbn [fst] in E.
  destruct (N.eqb_spec t' t); [contradiction|]. destruct (num_field t b); reflexivity.
Qed.
Lemma len_skip : forall t a b, without t a -> len_field t (a ++ b) = len_field t b.
Proof.
  intros t a b H. induction H as [|[t' v] a E _ IH]; [reflexivity|]. cbn [app len_field]. rewrite IH. cbn [fst] in E.
  destruct (N.eqb_spec t' t); [contradiction|]. destruct (len_field t b); reflexivity.
Qed.
Lemma msg_skip : forall A (dec : list N -> option A) mg t a b, without t a -> msg_field dec mg t (a ++ b) = msg_field dec mg t b.
Proof.
  intros A dec mg t a b H. induction H as [|[t' v] a E _ IH]; [reflexivity|]. cbn [app msg_field]. rewrite IH. cbn [fst] in E.
  destruct (N.eqb_spec t' t); [contradiction|]. destruct (msg_field dec mg t b); reflexivity.
Qed.
Lemma rep_skip : forall t a b, without t a -> rep_field t (a ++ b) = rep_field t b.
Proof.
  intros t a b H. induction H as [|[t' v] a E _ IH]; [reflexivity|]. cbn [app rep_field]. rewrite IH. cbn [fst] in E.
  destruct (N.eqb_spec t' t); [contradiction|]. destruct (rep_field t b); reflexivity.
Qed.
Lemma num_none : forall t a, without t a -> num_field t a = Some None.
Proof. intros t a H. rewrite <- (app_nil_r a), num_skip by exact H. reflexivity. Qed.
Lemma len_none : forall t a, without t a -> len_field t a = Some None.
Proof. intros t a H. rewrite <- (app_nil_r a), len_skip by exact H. reflexivity. Qed.
Lemma msg_none : forall A (dec : list N -> option A) mg t a, without t a -> msg_field dec mg t a = Some None.
Proof. intros A dec mg t a H. rewrite <- (app_nil_r a), msg_skip by exact H. reflexivity. Qed.
Lemma rep_none : forall t a, without t a -> rep_field t a = Some [].
Proof. intros t a H. rewrite <- (app_nil_r a), rep_skip by exact H. reflexivity. Qed.

Lemma num_here : forall t o b, without t b -> num_field t (onum t o ++ b) = Some o.
Proof.
  intros t [n|] b H; cbn [onum opt app num_field]; rewrite (num_none t b H); [rewrite N.eqb_refl|]; reflexivity.
Qed.
Lemma len_here : forall t o b, without t b -> len_field t (olen t o ++ b) = Some o.
Proof.
  intros t [n|] b H; cbn [olen opt app len_field]; rewrite (len_none t b H); [rewrite N.eqb_refl|]; reflexivity.
Qed.
Lemma msg_here : forall A (dec : list N -> option A) mg (enc : A -> list N) t o b, without t b ->
  (forall a, o = Some a -> dec (enc a) = Some a) -> msg_field dec mg t (olen t (option_map enc o) ++ b) = Some o.
Proof.
  intros A dec mg enc t [a|] b H D; cbn [option_map olen opt app msg_field]; rewrite (msg_none A dec mg t b H); [|reflexivity].
  rewrite N.eqb_refl, (D a eq_refl). reflexivity.
Qed.
Lemma rep_here : forall t l b, without t b -> rep_field t (rlen t l ++ b) = Some l.
Proof.
  intros t l b H. induction l as [|s l IH]; [apply rep_none; exact H|].
  change (rlen t (s :: l) ++ b) with ((t, WLen s) :: (rlen t l ++ b)). cbn [rep_field]. rewrite IH. cbn [obind]. rewrite N.eqb_refl. reflexivity.
Qed.
Lemma all_of_map : forall A B (dec : A -> option B) (enc : B -> A) l, (forall b, In b l -> dec (enc b) = Some b) ->
  all_of dec (map enc l) = Some l.
Proof.
  intros A B dec enc l. induction l as [|b l IH]; intros H; [reflexivity|]. cbn [map all_of]. rewrite (H b (or_introl eq_refl)). cbn [obind].
  rewrite IH by (intros x I; apply H; right; exact I). reflexivity.
Qed.

Lemma nums_app : forall a b, Forall num_ok a -> Forall num_ok b -> Forall num_ok (a ++ b).
Proof. intros. apply Forall_app. split; assumption. Qed.
Lemma nums_num : forall t o, t < 2 ^ 28 -> (forall n, o = Some n -> n < 2 ^ 64) -> Forall num_ok (onum t o).
Proof. intros t [n|] T H; [|constructor]. repeat constructor; [exact T|exact (H n eq_refl)]. Qed.
Lemma nums_len : forall t o, t < 2 ^ 28 -> Forall num_ok (olen t o).
Proof. intros t [n|] T; [|constructor]. repeat constructor; exact T. Qed.
Lemma nums_rep : forall t l, t < 2 ^ 28 -> Forall num_ok (rlen t l).
Proof. intros t l T. induction l; constructor; [split; [exact T|exact I]|assumption]. Qed.

(** * The messages inside *)
Definition qmsg_ok (q : qos) : Prop :=
  delay q < 2 ^ 32 /\ bandwidth q < 2 ^ 64 /\ availability q < 2 ^ 32 /\ loss q < 2 ^ 32 /\ ber q < 2 ^ 32 /\
  in_order q < 2 ^ 32 /\ max_gap q < 2 ^ 32 /\ cypher_s q < 2 ^ 32 /\ timeout q < 2 ^ 32.
Lemma good_qmsg : forall q, good_qos q -> qmsg_ok q.
Proof.
  intros q (A & B & C & D & E & F & G & H & I).
  assert (2 ^ 8 < 2 ^ 32) by reflexivity. assert (2 ^ 16 < 2 ^ 32) by reflexivity.
  unfold qmsg_ok. repeat split; try assumption; eapply N.lt_trans; eassumption.
Qed.
Lemma qos_len : forall q, (length (pack (qos_fields q)) <= 180)%nat.
Proof. intros. unfold qos_fields. lens. lia. Qed.
Ltac nums := repeat constructor; cbn [fst snd]; try reflexivity; try (apply lt3264; assumption); try assumption.
Lemma qos_rt : forall q, qmsg_ok q -> qos_unpack (pack (qos_fields q)) = Some q.
Proof.
  intros q (A & B & C & D & E & F & G & H & I). unfold qos_unpack. rewrite unpack_pack by nums.
  unfold qos_fields, num, num64. cbn -[u32 u64]. rewrite u64_small, !u32_small by assumption. destruct q; reflexivity.
Qed.
Lemma fi_len : forall m, (length (pack (fi_fields m)) <= 300)%nat.
Proof. intros. unfold fi_fields. pose proof (qos_len (mf_qos m)). lens. lia. Qed.
Definition fmsg_ok (m : fi_msg) : Prop :=
  mf_id m < 2 ^ 32 /\ mf_npid m < 2 ^ 32 /\ mf_n1pid m < 2 ^ 32 /\ mf_mpl m < 2 ^ 32 /\ mf_state m < 2 ^ 32 /\ qmsg_ok (mf_qos m).
Lemma fi_rt : forall m, fmsg_ok m -> fi_unpack (pack (fi_fields m)) = Some m.
Proof.
  intros m (A & B & C & D & E & F). unfold fi_unpack. pose proof (qos_len (mf_qos m)).
  rewrite unpack_pack.
  2: { apply ok_fields; [unfold fi_fields; nums|]. pose proof (fi_len m). unfold INT_MAX. lia. }
  unfold fi_fields, num. cbn -[u32 qos_unpack qos_fields pack]. rewrite qos_rt by exact F. cbn -[u32].
  rewrite !u32_small by assumption. destruct m; reflexivity.
Qed.
Definition imsg_ok (m : ii_msg) : Prop := mi_type m < 2 ^ 32 /\ mi_pid m < 2 ^ 32 /\ mi_state m < 2 ^ 32.
Lemma ii_rt : forall m, imsg_ok m -> N.of_nat (length (pack (ii_fields m))) <= INT_MAX -> ii_unpack (pack (ii_fields m)) = Some m.
Proof.
  intros m (A & B & C) L. unfold ii_unpack. rewrite unpack_pack by (apply ok_fields; [unfold ii_fields; nums|exact L]).
  unfold ii_fields, num. cbn -[u32]. rewrite !u32_small by assumption. destruct m; reflexivity.
Qed.
Definition lmsg_ok (m : li_msg) : Prop := mli_pid m < 2 ^ 32 /\ mli_type m < 2 ^ 32 /\ mli_hash m < 2 ^ 32.
Lemma li_rt : forall m, lmsg_ok m -> N.of_nat (length (pack (li_fields m))) <= INT_MAX -> li_unpack (pack (li_fields m)) = Some m.
Proof.
  intros m (A & B & C) L. unfold li_unpack. rewrite unpack_pack by (apply ok_fields; [unfold li_fields; nums|exact L]).
  unfold li_fields, num. cbn -[u32]. rewrite !u32_small by assumption. destruct m; reflexivity.
Qed.
Lemma ni_rt : forall m, npol m < 2 ^ 32 -> N.of_nat (length (pack (ni_fields m))) <= INT_MAX -> ni_unpack (pack (ni_fields m)) = Some m.
Proof.
  intros m A L. unfold ni_unpack. rewrite unpack_pack by (apply ok_fields; [unfold ni_fields; nums|exact L]).
  unfold ni_fields, num. cbn -[u32]. rewrite !u32_small by assumption. destruct m; reflexivity.
Qed.
Definition tmsg_ok (m : ts_msg) : Prop := mt_sec m < 2 ^ 64 /\ mt_nsec m < 2 ^ 32.
Lemma ts_len : forall m, (length (pack (ts_fields m)) <= 40)%nat.
Proof. intros. unfold ts_fields. lens. lia. Qed.
Lemma ts_rt : forall m, tmsg_ok m -> ts_unpack (pack (ts_fields m)) = Some m.
Proof.
  intros m (A & B). unfold ts_unpack. rewrite unpack_pack.
  2: { apply ok_fields; [unfold ts_fields; nums|]. pose proof (ts_len m). unfold INT_MAX. lia. }
  unfold ts_fields, num, num64. cbn -[u32 u64]. rewrite u64_small, u32_small by assumption. destruct m; reflexivity.
Qed.

(** * The whole message *)
Definition each {A} (P : A -> Prop) (o : option A) : Prop := forall a, o = Some a -> P a.
Record msg_ok (m : irm_msg) : Prop := {
  ok_code : m_code m < 2 ^ 32;
  ok_pid : each int32 (m_pid m);
  ok_flow : each fmsg_ok (m_flow m);
  ok_ipcp : each imsg_ok (m_ipcp m);
  ok_resp : each int32 (m_resp m);
  ok_qos : each qmsg_ok (m_qos m);
  ok_conf : each conf_ok (m_conf m);
  ok_opts : each (fun n => n < 2 ^ 32) (m_opts m);
  ok_ipcps : Forall lmsg_ok (m_ipcps m);
  ok_names : Forall (fun n => npol n < 2 ^ 32) (m_names m);
  ok_timeo : each tmsg_ok (m_timeo m);
  ok_result : each int32 (m_result m)
}.

Ltac wo := repeat first [apply without_app | apply without_one; discriminate | apply without_num; discriminate
                        | apply without_len; discriminate | apply without_rep; discriminate].
Lemma each_zz : forall o n, each int32 o -> option_map zz o = Some n -> n < 2 ^ 64.
Proof. intros [z|] n H E; [|discriminate E]. injection E as <-. apply lt3264, zz_lt, H. reflexivity. Qed.
Lemma unzz_map : forall o, each int32 o -> option_map unzz (option_map zz o) = o.
Proof. intros [z|] H; [|reflexivity]. cbn [option_map]. rewrite unzz_zz by (apply H; reflexivity). reflexivity. Qed.

Lemma irm_nums : forall m, msg_ok m -> Forall num_ok (irm_fields m).
Proof.
  intros m H. unfold irm_fields.
  repeat apply nums_app; try (apply nums_len; reflexivity); try (apply nums_rep; reflexivity);
    try (apply nums_num; [reflexivity|]).
  - nums. apply lt3264, (ok_code m H).
  - intros n. apply each_zz, (ok_pid m H).
  - intros n. apply each_zz, (ok_resp m H).
  - intros n E. apply lt3264, (ok_opts m H n E).
  - intros n. apply each_zz, (ok_result m H).
Qed.

Lemma rlen_in : forall t l s, In s l -> In (t, WLen s) (rlen t l).
Proof. intros t l s I. unfold rlen. apply (in_map (fun s => (t, WLen s))). exact I. Qed.

(** Every message inside is shorter than the whole. *)
Lemma inner_len : forall m t l, N.of_nat (length (pack (irm_fields m))) <= INT_MAX -> In (t, WLen l) (irm_fields m) -> N.of_nat (length l) <= INT_MAX.
Proof. intros m t l L I. pose proof (len_in_pack _ _ _ I). lia. Qed.

Section Getters.
Variable m : irm_msg.
Ltac num_at := unfold irm_fields; repeat rewrite num_skip by wo; apply num_here; wo.
Ltac len_at := unfold irm_fields; repeat rewrite len_skip by wo; apply len_here; wo.
Ltac msg_at := intros; unfold irm_fields; repeat rewrite msg_skip by wo; apply msg_here; [wo|assumption].
Ltac rep_at := unfold irm_fields; repeat rewrite rep_skip by wo; apply rep_here; wo.
Lemma at1 : num_field 1 (irm_fields m) = Some (Some (m_code m)).
Proof. unfold irm_fields. change [(1, WVar (m_code m))] with (onum 1 (Some (m_code m))). apply num_here. wo. Qed.
Lemma at2 : len_field 2 (irm_fields m) = Some (m_prog m). Proof. len_at. Qed.
Lemma at3 : num_field 3 (irm_fields m) = Some (option_map zz (m_pid m)). Proof. num_at. Qed.
Lemma at4 : len_field 4 (irm_fields m) = Some (m_name m). Proof. len_at. Qed.
Lemma at5 : (forall a, m_flow m = Some a -> fi_unpack (pack (fi_fields a)) = Some a) ->
  msg_field fi_unpack later 5 (irm_fields m) = Some (m_flow m). Proof. msg_at. Qed.
Lemma at6 : (forall a, m_ipcp m = Some a -> ii_unpack (pack (ii_fields a)) = Some a) ->
  msg_field ii_unpack later 6 (irm_fields m) = Some (m_ipcp m). Proof. msg_at. Qed.
Lemma at7 : len_field 7 (irm_fields m) = Some None. Proof. apply len_none. unfold irm_fields. wo. Qed.
Lemma at8 : rep_field 8 (irm_fields m) = Some (m_exec m). Proof. rep_at. Qed.
Lemma at9 : num_field 9 (irm_fields m) = Some (option_map zz (m_resp m)). Proof. num_at. Qed.
Lemma at10 : len_field 10 (irm_fields m) = Some (m_dst m). Proof. len_at. Qed.
Lemma at11 : len_field 11 (irm_fields m) = Some (m_hash m). Proof. len_at. Qed.
Lemma at12 : num_field 12 (irm_fields m) = Some None. Proof. apply num_none. unfold irm_fields. wo. Qed.
Lemma at13 : (forall a, m_qos m = Some a -> qos_unpack (pack (qos_fields a)) = Some a) ->
  msg_field qos_unpack later 13 (irm_fields m) = Some (m_qos m). Proof. msg_at. Qed.
Lemma at14 : (forall a, m_conf m = Some a -> conf_unpack (pack (conf_fields a)) = Some a) ->
  msg_field conf_unpack conf_merge 14 (irm_fields m) = Some (m_conf m). Proof. msg_at. Qed.
Lemma at15 : num_field 15 (irm_fields m) = Some (m_opts m). Proof. num_at. Qed.
Lemma at16 : rep_field 16 (irm_fields m) = Some (map (fun x => pack (li_fields x)) (m_ipcps m)). Proof. rep_at. Qed.
Lemma at17 : rep_field 17 (irm_fields m) = Some (map (fun x => pack (ni_fields x)) (m_names m)). Proof. rep_at. Qed.
Lemma at18 : (forall a, m_timeo m = Some a -> ts_unpack (pack (ts_fields a)) = Some a) ->
  msg_field ts_unpack later 18 (irm_fields m) = Some (m_timeo m). Proof. msg_at. Qed.
Lemma at20 : num_field 20 (irm_fields m) = Some None. Proof. apply num_none. unfold irm_fields. wo. Qed.
Lemma at21 : len_field 21 (irm_fields m) = Some (m_comp m). Proof. len_at. Qed.
Lemma at22 : len_field 22 (irm_fields m) = Some (m_pk m). Proof. len_at. Qed.
Lemma at23 : len_field 23 (irm_fields m) = Some (m_key m). Proof. len_at. Qed.
Lemma at24 : num_field 24 (irm_fields m) = Some None. Proof. apply num_none. unfold irm_fields. wo. Qed.
Lemma at25 : num_field 25 (irm_fields m) = Some None. Proof. apply num_none. unfold irm_fields. wo. Qed.
Lemma at26 : num_field 26 (irm_fields m) = Some (option_map zz (m_result m)).
Proof. unfold irm_fields. repeat rewrite num_skip by wo. rewrite <- (app_nil_r (onum 26 _)). apply num_here. constructor. Qed.
End Getters.

Lemma irm_rt : forall m, msg_ok m -> N.of_nat (length (pack (irm_fields m))) <= INT_MAX ->
  irm_unpack (pack (irm_fields m)) = Some m.
Proof.
  intros m H L. unfold irm_unpack. rewrite unpack_pack by (apply ok_fields; [apply irm_nums; exact H|exact L]).
  assert (LI : forall i, m_ipcp m = Some i -> N.of_nat (length (pack (ii_fields i))) <= INT_MAX).
  { intros i E. apply (inner_len m 6 _ L). unfold irm_fields. rewrite E. cbn [option_map]. do 5 (apply in_or_app; right). apply in_or_app. left. left. reflexivity. }
  assert (LL : forall i, In i (m_ipcps m) -> N.of_nat (length (pack (li_fields i))) <= INT_MAX).
  { intros i E. apply (inner_len m 16 _ L). unfold irm_fields. do 13 (apply in_or_app; right). apply in_or_app. left. apply rlen_in. apply (in_map (fun x => pack (li_fields x))). exact E. }
  assert (LN : forall i, In i (m_names m) -> N.of_nat (length (pack (ni_fields i))) <= INT_MAX).
  { intros i E. apply (inner_len m 17 _ L). unfold irm_fields. do 14 (apply in_or_app; right). apply in_or_app. left. apply rlen_in. apply (in_map (fun x => pack (ni_fields x))). exact E. }
  clear L. assert (OI := ok_ipcps m H). assert (ON := ok_names m H). rewrite Forall_forall in OI, ON. cbv beta in ON.
  cbn [obind]. unfold num. rewrite at1. cbn [req obind].
  rewrite at2. cbn [obind]. rewrite at3. cbn [obind]. rewrite at4. cbn [obind].
  rewrite at5 by (intros a E; apply fi_rt, (ok_flow m H a E)). cbn [obind].
  rewrite at6 by (intros a E; apply ii_rt; [apply (ok_ipcp m H a E)|apply LI; exact E]). cbn [obind].
  rewrite at7. cbn [obind]. rewrite at8. cbn [obind]. rewrite at9. cbn [obind]. rewrite at10. cbn [obind].
  rewrite at11. cbn [obind]. rewrite at12. cbn [obind].
  rewrite at13 by (intros a E; apply qos_rt, (ok_qos m H a E)). cbn [obind].
  rewrite at14 by (intros a E; apply conf_rt, (ok_conf m H a E)). cbn [obind].
  rewrite at15. cbn [obind].
  rewrite at16. cbn [obind]. rewrite all_of_map by (intros i I; apply li_rt; [apply OI; exact I|apply LL; exact I]). cbn [obind].
  rewrite at17. cbn [obind]. rewrite all_of_map by (intros i I; apply ni_rt; [apply ON; exact I|apply LN; exact I]). cbn [obind].
  rewrite at18 by (intros a E; apply ts_rt, (ok_timeo m H a E)). cbn [obind].
  rewrite at20. cbn [obind]. rewrite at21. cbn [obind]. rewrite at22. cbn [obind]. rewrite at23. cbn [obind].
  rewrite at24. cbn [obind]. rewrite at25. cbn [obind]. rewrite at26. cbn [obind].
  rewrite (unzz_map _ (ok_pid m H)), (unzz_map _ (ok_resp m H)), (unzz_map _ (ok_result m H)), u32_small by apply (ok_code m H).
  assert (O : option_map u32 (m_opts m) = m_opts m).
  { pose proof (ok_opts m H) as O. destruct (m_opts m) as [n|]; [|reflexivity]. cbn [option_map]. rewrite u32_small by (apply O; reflexivity). reflexivity. }
  rewrite O. destruct m; reflexivity.
Qed.
