(** Properties of enrollment. *)
From Coq Require Import NArith ZArith List Bool Lia ZifyBool ZifyNat ZifyN.
From Verif Require Import WireModel WireProofs EnrollModel EnrollSpec.
Import ListNotations.
Local Open Scope N_scope.
Local Opaque put_varint.

(** * Lengths *)

Lemma pack_cons : forall f fs, pack (f :: fs) = put_field f ++ pack fs.
Proof. reflexivity. Qed.
Lemma pack_nil : pack [] = [].
Proof. reflexivity. Qed.
Lemma len_var : forall t n, (length (put_field (t, WVar n)) <= 20)%nat.
Proof.
  intros. cbn [put_field]. rewrite app_length.
  pose proof (put_len10 (8 * t)). pose proof (put_len10 n). lia.
Qed.
Lemma len_len : forall t l, (length (put_field (t, WLen l)) <= 20 + length l)%nat.
Proof.
  intros. cbn [put_field]. rewrite !app_length.
  pose proof (put_len10 (8 * t + 2)). pose proof (put_len10 (N.of_nat (length l))). lia.
Qed.

Ltac lens := rewrite ?pack_cons, ?pack_nil, ?app_length; cbn [length];
  repeat match goal with
  | |- context [length (put_field (?t, WVar ?n))] =>
      let H := fresh in pose proof (len_var t n) as H; revert H;
      generalize (length (put_field (t, WVar n))); intros
  | |- context [length (put_field (?t, WLen ?n))] =>
      let H := fresh in pose proof (len_len t n) as H; revert H;
      generalize (length (put_field (t, WLen n))); intros
  end.

Lemma dt_len : forall m, (length (pack (dt_fields m)) <= 80)%nat.
Proof. intros. unfold dt_fields. lens. lia. Qed.
Lemma uni_len : forall m, (length (pack (uni_fields m)) <= 140)%nat.
Proof. intros. unfold uni_fields. pose proof (dt_len (mu_dt m)). lens. lia. Qed.
Lemma udp_len : forall m, (length (pack (udp_fields m)) <= 60)%nat.
Proof. intros. unfold udp_fields. lens. lia. Qed.
Lemma eth_len : forall m, (length (me_dev m) <= 255)%nat ->
  (length (pack (eth_fields m)) <= 295)%nat.
Proof. intros. unfold eth_fields. lens. lia. Qed.
Lemma layer_len : forall m, (length (ml_name m) <= 255)%nat ->
  (length (pack (layer_fields m)) <= 295)%nat.
Proof. intros. unfold layer_fields. lens. lia. Qed.

(** * Round trips of the messages *)

Ltac okf := repeat constructor; cbn [fst snd];
  try (change (2 ^ 28) with 268435456; lia);
  try (change (2 ^ 64) with 18446744073709551616; change (2 ^ 32) with 4294967296 in *; lia);
  try apply sext_lt; try (unfold INT_MAX; lia).

Definition dt_ok (m : dt_msg) := md_addr m < 2 ^ 32 /\ md_eid m < 2 ^ 32 /\ md_ttl m < 2 ^ 32 /\
  md_rt m < 2 ^ 32.
Lemma dt_rt : forall m, dt_ok m -> dt_unpack (pack (dt_fields m)) = Some m.
Proof.
  intros m (A & B & C & D). unfold dt_unpack. rewrite unpack_pack by okf.
  unfold dt_fields. cbn. rewrite !u32_small by assumption. destruct m; reflexivity.
Qed.
Definition uni_ok (m : uni_msg) := dt_ok (mu_dt m) /\ mu_auth m < 2 ^ 32 /\ mu_cong m < 2 ^ 32.
Lemma uni_rt : forall m, uni_ok m -> uni_unpack (pack (uni_fields m)) = Some m.
Proof.
  intros m (A & B & C). unfold uni_unpack. pose proof (dt_len (mu_dt m)).
  rewrite unpack_pack by okf.
  unfold uni_fields. cbn -[dt_unpack dt_fields pack]. rewrite dt_rt by assumption.
  cbn. rewrite !u32_small by assumption. destruct m; reflexivity.
Qed.
Definition udp_ok (m : udp_msg) := mp_ip m < 2 ^ 32 /\ mp_port m < 2 ^ 32 /\ mp_dns m < 2 ^ 32.
Lemma udp_rt : forall m, udp_ok m -> udp_unpack (pack (udp_fields m)) = Some m.
Proof.
  intros m (A & B & C). unfold udp_unpack. rewrite unpack_pack by okf.
  unfold udp_fields. cbn. rewrite !u32_small by assumption. destruct m; reflexivity.
Qed.
Definition eth_ok (m : eth_msg) := (length (me_dev m) <= 255)%nat /\ me_type m < 2 ^ 32.
Lemma eth_rt : forall m, eth_ok m -> eth_unpack (pack (eth_fields m)) = Some m.
Proof.
  intros m (A & B). unfold eth_unpack. rewrite unpack_pack by okf.
  unfold eth_fields. cbn. rewrite !u32_small by assumption. destruct m; reflexivity.
Qed.
Definition layer_ok (m : layer_msg) := (length (ml_name m) <= 255)%nat /\ ml_hash m < 2 ^ 32.
Lemma layer_rt : forall m, layer_ok m -> layer_unpack (pack (layer_fields m)) = Some m.
Proof.
  intros m (A & B). unfold layer_unpack. rewrite unpack_pack by okf.
  unfold layer_fields. cbn. rewrite !u32_small by assumption. destruct m; reflexivity.
Qed.
Definition omap {A} (P : A -> Prop) (o : option A) : Prop :=
  match o with Some a => P a | None => True end.
Definition conf_ok (m : conf_msg) := layer_ok (mc_layer m) /\ mc_type m < 2 ^ 32 /\
  omap uni_ok (mc_uni m) /\ omap udp_ok (mc_udp m) /\ omap eth_ok (mc_eth m).
Lemma conf_len : forall m, conf_ok m -> (length (pack (conf_fields m)) <= 890)%nat.
Proof.
  intros m (A & B & C & D & E). unfold conf_fields.
  pose proof (layer_len (mc_layer m) (proj1 A)).
  destruct (mc_uni m) as [u|], (mc_udp m) as [p|], (mc_eth m) as [e|]; cbn [opt omap app] in *;
    try pose proof (uni_len u); try pose proof (udp_len p);
    try pose proof (eth_len e (proj1 E)); lens; lia.
Qed.
Lemma conf_rt : forall m, conf_ok m -> conf_unpack (pack (conf_fields m)) = Some m.
Proof.
  intros m H. pose proof H as (A & B & C & D & E). unfold conf_unpack.
  pose proof (layer_len (mc_layer m) (proj1 A)).
  destruct m as [y t u p e]. cbn [mc_layer mc_type mc_uni mc_udp mc_eth] in *.
  unfold conf_fields; cbn [mc_layer mc_type mc_uni mc_udp mc_eth].
  destruct u as [u|], p as [p|], e as [e|]; cbn [opt omap app] in *;
    try pose proof (uni_len u); try pose proof (udp_len p);
    try pose proof (eth_len e (proj1 E));
    rewrite unpack_pack by okf;
    cbn -[layer_unpack layer_fields uni_unpack uni_fields udp_unpack udp_fields eth_unpack
          eth_fields pack];
    rewrite layer_rt by assumption; cbn -[layer_unpack layer_fields uni_unpack uni_fields
       udp_unpack udp_fields eth_unpack eth_fields pack u32];
    rewrite ?uni_rt, ?udp_rt, ?eth_rt by assumption; cbn -[u32];
    rewrite u32_small by assumption; reflexivity.
Qed.

Definition resp_ok (m : resp_msg) := length (mr_id m) = 8%nat /\
  (- 2 ^ 63 <= mr_sec m < 2 ^ 63)%Z /\ (- 2 ^ 31 <= mr_nsec m < 2 ^ 31)%Z /\
  (- 2 ^ 31 <= mr_resp m < 2 ^ 31)%Z /\ omap conf_ok (mr_conf m).
Lemma resp_len : forall m, resp_ok m -> (length (pack (resp_fields m)) <= 998)%nat.
Proof.
  intros m (A & B & C & D & E). unfold resp_fields.
  destruct (mr_conf m) as [c|]; cbn [opt omap app] in *; try pose proof (conf_len c E); lens; lia.
Qed.
Lemma resp_rt : forall m, resp_ok m -> resp_unpack (pack (resp_fields m)) = Some m.
Proof.
  intros m H. pose proof H as (A & B & C & D & E). unfold resp_unpack.
  destruct m as [i s n r c]. cbn [mr_id mr_sec mr_nsec mr_resp mr_conf] in *.
  unfold resp_fields; cbn [mr_id mr_sec mr_nsec mr_resp mr_conf].
  destruct c as [c|]; cbn [opt omap app] in *; try pose proof (conf_len c E);
    rewrite unpack_pack by okf; cbn -[conf_unpack conf_fields pack i64 i32 sext];
    rewrite ?conf_rt by assumption; cbn -[i64 i32 sext];
    rewrite i64_sext, !i32_sext by assumption; reflexivity.
Qed.

(** From structure to message and back. *)
Lemma conf_s_rt : forall c, good_conf c ->
  exists m, conf_s_to_msg c = Ok m /\ conf_ok m /\ conf_msg_to_s m = Ok c.
Proof.
  intros [n h t b] ((N1 & N2) & H & T & B). cbn [lname hash_algo ctype cbody] in *.
  assert (S : cstr n = n) by (apply cstr_id; exact N1).
  unfold conf_s_to_msg, conf_msg_to_s, layer_s_to_msg, IPCP_UNICAST, IPCP_ETH_LLC, IPCP_ETH_DIX,
    IPCP_UDP, LAYER_NAME_SIZE; cbn [lname hash_algo ctype cbody].
  assert (L : Nat.leb (length n) 255 = true) by (apply Nat.leb_le; exact N2).
  destruct b as [|u|u|e].
  - assert (E1 : (t =? 1) = false) by lia. assert (E3 : (t =? 3) = false) by lia.
    assert (E4 : (t =? 4) = false) by lia. assert (E5 : (t =? 5) = false) by lia.
    rewrite E1, E3, E4, E5. cbn [orb]. eexists. split; [reflexivity|].
    cbn [mc_layer mc_type mc_uni mc_udp mc_eth ml_name ml_hash].
    rewrite S, L, E1, E3, E4, E5. cbn [negb orb]. split; [|reflexivity].
    unfold conf_ok, layer_ok; cbn. tauto.
  - destruct B as (Et & B). subst t. eexists. split; [reflexivity|].
    cbn [mc_layer mc_type mc_uni mc_udp mc_eth ml_name ml_hash].
    rewrite S, L. cbn [negb N.eqb Pos.eqb orb]. destruct u as [a e x r au cg].
    cbn [addr_size eid_size max_ttl routing addr_auth cong] in B.
    destruct B as (B1 & B2 & B3 & B4 & B5 & B6). split.
    + unfold conf_ok, layer_ok, omap, uni_ok, dt_ok; cbn.
      change 4294967296 with (2 ^ 32). assert (256 < 2 ^ 32) by reflexivity.
      repeat split; try assumption; try (eapply N.lt_trans; eassumption).
    + unfold uni_msg_to_s, uni_s_to_msg; cbn [mu_dt md_addr md_eid md_ttl md_rt mu_auth mu_cong
        addr_size eid_size max_ttl routing addr_auth cong].
      rewrite !N.mod_small by assumption. reflexivity.
  - destruct B as (Et & B). subst t. eexists. split; [reflexivity|].
    cbn [mc_layer mc_type mc_uni mc_udp mc_eth ml_name ml_hash].
    rewrite S, L. cbn [negb N.eqb Pos.eqb orb]. destruct u as [i d p].
    cbn [ip_addr dns_addr port] in B. destruct B as (B1 & B2 & B3). split.
    + unfold conf_ok, layer_ok, omap, udp_ok; cbn. change 4294967296 with (2 ^ 32).
      assert (65536 < 2 ^ 32) by reflexivity.
      repeat split; try assumption; try (eapply N.lt_trans; eassumption).
    + unfold udp_msg_to_s, udp_s_to_msg; cbn [mp_ip mp_port mp_dns ip_addr dns_addr port].
      rewrite !N.mod_small by assumption. reflexivity.
  - destruct B as (Et & (D1 & D2) & B). destruct e as [d ty]. cbn [dev ethertype] in *.
    assert (Sd : cstr d = d) by (apply cstr_id; exact D1).
    assert (Ld : Nat.leb (length d) 255 = true) by (apply Nat.leb_le; exact D2).
    assert (65536 < 2 ^ 32) by reflexivity.
    destruct Et as [Et|Et]; subst t; (eexists; split; [reflexivity|]);
      cbn [mc_layer mc_type mc_uni mc_udp mc_eth ml_name ml_hash];
      rewrite S, L; cbn [negb N.eqb Pos.eqb orb];
      unfold eth_msg_to_s, eth_s_to_msg, DEV_NAME_SIZE; cbn [me_dev me_type dev ethertype];
      rewrite Sd, Ld; cbn [bind]; rewrite N.mod_small by assumption; (split; [|reflexivity]);
      unfold conf_ok, layer_ok, omap, eth_ok; cbn; change 4294967296 with (2 ^ 32);
      repeat split; try assumption; try (eapply N.lt_trans; eassumption).
Qed.

Lemma fit_ok : forall l, (length l <= 1024)%nat -> fit ENROLL_BUF_LEN l = Ok l.
Proof.
  intros l H. unfold fit, ENROLL_BUF_LEN. destruct (N.ltb_spec 1024 (N.of_nat (length l))); [lia|reflexivity].
Qed.
Lemma read_all : forall l, (length l <= 1024)%nat -> read_buf l = l.
Proof.
  intros l H. unfold read_buf. apply firstn_all2. unfold ENROLL_BUF_LEN.
  change (N.to_nat 1024) with 1024%nat. exact H.
Qed.
Lemma copy_id8 : forall i, length i = 8%nat -> copy_id i = Ok i.
Proof.
  intros i H. unfold copy_id, ENROLL_ID_LEN. rewrite H. cbn [Nat.leb]. rewrite <- H, firstn_all. reflexivity.
Qed.

Lemma req_msg : forall i, length i = 8%nat ->
  exists q, boot_req i = Ok q /\ (length q <= 1024)%nat /\ req_des (read_buf q) = Ok i.
Proof.
  intros i H. exists (pack (req_fields i)).
  assert (L : (length (pack (req_fields i)) <= 1024)%nat) by (unfold req_fields; lens; lia).
  split; [apply fit_ok; exact L|]. split; [exact L|].
  rewrite read_all by exact L. unfold req_des, req_unpack.
  rewrite unpack_pack by okf. unfold req_fields. cbn -[copy_id Nat.eqb]. rewrite H. cbn [Nat.eqb ENROLL_ID_LEN].
  apply copy_id8; exact H.
Qed.

Lemma resp_msg_ok : forall i now c, length i = 8%nat -> good_time now -> good_conf c ->
  exists p, resp_ser (Resp i (fst now) (snd now) 0 (Some c)) ENROLL_BUF_LEN = Ok p /\
            (length p <= 1024)%nat /\
            resp_des (read_buf p) = Ok (Resp i (fst now) (snd now) 0 (Some c)).
Proof.
  intros i now c I (T1 & T2) C. destruct (conf_s_rt c C) as (m & M1 & M2 & M3).
  set (r := RespMsg i (fst now) (snd now) 0 (Some m)).
  assert (R : resp_ok r).
  { unfold resp_ok; cbn [r mr_id mr_sec mr_nsec mr_resp mr_conf omap].
    split; [exact I|]. split; [exact T1|]. split; [lia|]. split; [lia|exact M2]. }
  pose proof (resp_len r R) as L.
  exists (pack (resp_fields r)). split.
  - unfold resp_ser, resp_s_to_msg. cbn [response r_conf r_id t_sec t_nsec].
    change (0 <? 0)%Z with false. cbv iota. rewrite M1. cbn [bind]. apply fit_ok. fold r. lia.
  - split; [lia|]. rewrite read_all by lia. unfold resp_des. rewrite resp_rt by exact R.
    unfold resp_msg_to_s. cbn [r mr_id mr_sec mr_nsec mr_resp mr_conf].
    change (0 <=? 0)%Z with true. cbv iota. rewrite M3. cbn [bind]. rewrite copy_id8 by exact I.
    reflexivity.
Qed.

(** C85 (enrollment hands over the configuration).  Whatever the
    configuration of the member, the time and the identifier: the request
    and the answer are made, both fit the 1024 bytes that both ends
    reserve, the member answers the request, and an IPCP of the member's
    type adopts from that answer exactly the member's configuration, while
    an IPCP of another type, or one that waits for the answer to another
    request, refuses it. *)
Theorem enrollment_hands_over_config :
  forall own now id, good_conf own -> good_time now -> good_id id ->
  exists q p,
    boot_req id = Ok q /\ (length q <= 1024)%nat /\
    handle_req own now q = Ok p /\ (length p <= 1024)%nat /\
    boot_resp (ctype own) id p = Ok own /\
    (forall ty, ty <> ctype own -> boot_resp ty id p = Err) /\
    (forall ty id', id' <> id -> boot_resp ty id' p = Err).
Proof.
  intros own now id C T (I & _).
  destruct (req_msg id I) as (q & Q1 & Q2 & Q3).
  destruct (resp_msg_ok id now own I T C) as (p & P1 & P2 & P3).
  exists q, p. split; [exact Q1|]. split; [exact Q2|]. split.
  { unfold handle_req. rewrite Q3. cbn [bind]. exact P1. }
  split; [exact P2|]. unfold boot_resp. rewrite P3. cbn [bind r_id response r_conf].
  change (0 <? 0)%Z with false. cbv iota. split; [|split].
  - destruct (list_eq_dec N.eq_dec id id); [|congruence]. cbn [negb]. rewrite N.eqb_refl. reflexivity.
  - intros ty Ht. destruct (list_eq_dec N.eq_dec id id); [|congruence]. cbn [negb].
    destruct (N.eqb_spec (ctype own) ty); [congruence|reflexivity].
  - intros ty id' Hd. destruct (list_eq_dec N.eq_dec id id'); [congruence|]. reflexivity.
Qed.
Print Assumptions enrollment_hands_over_config.

(** C85: the result that the joining IPCP sends is the result that the
    member reports. *)
Theorem enrollment_result_reported :
  forall id r, good_id id -> (- 2 ^ 31 <= r < 2 ^ 31)%Z ->
  exists p, send_ack id r = Ok p /\ handle_ack (Some p) = Ok r.
Proof.
  intros id r (I & _) R. set (m := AckMsg id r). exists (pack (ack_fields m)).
  assert (L : (length (pack (ack_fields m)) <= 1024)%nat).
  { unfold ack_fields. cbn [m mk_id mk_res]. lens. lia. }
  split; [apply fit_ok; exact L|].
  unfold handle_ack. rewrite read_all by exact L. unfold ack_des, ack_unpack.
  assert (F : Forall ok_field (ack_fields m)).
  { unfold ack_fields. cbn [m mk_id mk_res]. okf. }
  rewrite unpack_pack by exact F.
  cbn -[i32 sext copy_id]. rewrite i32_sext by exact R. unfold ack_msg_to_s.
  cbn [mk_id mk_res]. rewrite copy_id8 by exact I. reflexivity.
Qed.
Print Assumptions enrollment_result_reported.

Lemma conf_s_to_msg_defined : forall c, good_conf c -> conf_s_to_msg c <> UB.
Proof. intros c H. destruct (conf_s_rt c H) as (m & -> & _). discriminate. Qed.

(** C85 (no request harms the member).  Whatever bytes arrive, the member
    answers or refuses; it answers with its own configuration and the
    identifier of the request. *)
Theorem enrollment_request_safe :
  forall own now p, good_conf own -> good_time now ->
  handle_req own now p <> UB /\
  forall a, handle_req own now p = Ok a ->
    exists id, length id = 8%nat /\ boot_resp (ctype own) id a = Ok own.
Proof.
  intros own now p C T. unfold handle_req.
  destruct (req_des (read_buf p)) as [i| |] eqn:E; cbn [bind].
  - assert (I : length i = 8%nat).
    { unfold req_des in E. destruct (req_unpack (read_buf p)) as [j|]; [|discriminate].
      destruct (Nat.eqb_spec (length j) ENROLL_ID_LEN) as [J|J]; [|discriminate].
      rewrite copy_id8 in E by exact J. injection E as <-. exact J. }
    destruct (resp_msg_ok i now own I T C) as (a & A1 & A2 & A3). split.
    + rewrite A1. discriminate.
    + intros b B. rewrite A1 in B. injection B as <-. exists i. split; [exact I|].
      unfold boot_resp. rewrite A3. cbn [bind r_id response r_conf].
      change (0 <? 0)%Z with false. cbv iota.
      destruct (list_eq_dec N.eq_dec i i); [|congruence]. cbn [negb]. rewrite N.eqb_refl. reflexivity.
  - split; [discriminate|]. intros a A. discriminate.
  - exfalso. unfold req_des in E. destruct (req_unpack (read_buf p)) as [j|]; [|discriminate].
    destruct (Nat.eqb_spec (length j) ENROLL_ID_LEN) as [J|J]; [|discriminate].
    rewrite copy_id8 in E by exact J. discriminate.
Qed.
Print Assumptions enrollment_request_safe.

Lemma copy_id_ub : forall l, copy_id l = UB <-> (length l < 8)%nat.
Proof.
  intros l. unfold copy_id, ENROLL_ID_LEN. destruct (Nat.leb_spec 8 (length l)); split; intros; (lia || congruence || discriminate).
Qed.
Lemma copy_id_err : forall l, copy_id l <> Err.
Proof. intros l. unfold copy_id. destruct (Nat.leb ENROLL_ID_LEN (length l)); discriminate. Qed.

Lemma conf_ub : forall c, conf_msg_to_s c = UB <-> long_name c \/ part_missing c.
Proof.
  intros c. unfold conf_msg_to_s, long_name, part_missing, IPCP_UNICAST, IPCP_ETH_LLC, IPCP_ETH_DIX,
    IPCP_UDP, LAYER_NAME_SIZE.
  destruct (Nat.leb_spec (length (cstr (ml_name (mc_layer c)))) 255) as [L|L]; cbn [negb].
  2: { split; [intros _; left; left; exact L|reflexivity]. }
  destruct (N.eqb_spec (mc_type c) 1) as [E1|E1].
  { rewrite E1. destruct (mc_uni c); split; intros H; try discriminate; try reflexivity.
    - destruct H as [[H|[[H|H] _]]|[[_ H]|[[[H|H] _]|[H _]]]]; try lia; discriminate.
    - right. left. split; reflexivity. }
  destruct (N.eqb_spec (mc_type c) 3) as [E3|E3]; [|destruct (N.eqb_spec (mc_type c) 4) as [E4|E4]]; cbn [orb].
  1, 2: destruct (mc_eth c) as [e|]; unfold eth_msg_to_s, DEV_NAME_SIZE;
    [destruct (Nat.leb_spec (length (cstr (me_dev e))) 255) as [D|D]; cbn [bind]|]; split; intros H;
    try discriminate; try reflexivity;
    [ exfalso; destruct H as [[H|[_ (x & X & H)]]|[[H _]|[[_ H]|[H _]]]]; try lia; try discriminate;
      injection X as ->; lia
    | left; right; split; [tauto|]; exists e; split; [reflexivity|exact D]
    | right; right; left; split; [tauto|reflexivity] ].
  destruct (N.eqb_spec (mc_type c) 5) as [E5|E5].
  { destruct (mc_udp c); split; intros H; try discriminate; try reflexivity.
    - exfalso. destruct H as [[H|[[H|H] _]]|[[H _]|[[[H|H] _]|[_ H]]]]; try lia; discriminate.
    - right. right. right. split; [exact E5|reflexivity]. }
  split; intros H; [discriminate|]. exfalso.
  destruct H as [[H|[[H|H] _]]|[[H _]|[[[H|H] _]|[H _]]]]; lia.
Qed.

Lemma conf_not_err : forall c, conf_msg_to_s c <> Err.
Proof.
  intros c. unfold conf_msg_to_s, eth_msg_to_s.
  repeat match goal with
  | |- context [match ?x with _ => _ end] => destruct x; cbn [bind]
  end; try discriminate.
Qed.

(** C85, joining side: the answers that crash the joining IPCP are exactly
    those with an identifier of less than eight bytes, or with a response
    that is not negative and no configuration, a name of more than 255
    characters, or without the part that belongs to the type.  Missing for
    the full claim (no answer crashes it): those four. *)
Theorem enrollment_answer_safe_partial :
  forall ty id p, boot_resp ty id p = UB <->
  exists m, resp_unpack (read_buf p) = Some m /\
    (short_id m \/
     ((0 <= mr_resp m)%Z /\
      (no_conf m \/ exists c, mr_conf m = Some c /\ (long_name c \/ part_missing c)))).
Proof.
  intros ty id p. unfold boot_resp, resp_des.
  destruct (resp_unpack (read_buf p)) as [m|] eqn:E.
  2: { split; [discriminate|]. intros (m & M & _). discriminate. }
  assert (K : resp_msg_to_s m = UB <->
    (short_id m \/ ((0 <= mr_resp m)%Z /\
      (no_conf m \/ exists c, mr_conf m = Some c /\ (long_name c \/ part_missing c))))).
  { unfold resp_msg_to_s, short_id, no_conf. destruct (Z.leb_spec 0 (mr_resp m)) as [R|R].
    - destruct (mr_conf m) as [c|].
      + pose proof (conf_ub c) as U. pose proof (conf_not_err c) as V.
        destruct (conf_msg_to_s c) as [x| |] eqn:X; cbn [bind]; [|congruence|].
        * pose proof (copy_id_ub (mr_id m)) as W. pose proof (copy_id_err (mr_id m)) as W'.
          destruct (copy_id (mr_id m)); cbn [bind]; [|congruence|]; split; intros H; try discriminate; try reflexivity.
          -- destruct H as [H|[_ [H|(c' & C & H)]]]; [apply W in H; discriminate|discriminate|].
             injection C as <-. apply U in H. discriminate.
          -- left. apply W. reflexivity.
        * split; [|reflexivity]. intros _. right. split; [exact R|]. right. exists c.
          split; [reflexivity|]. apply U. reflexivity.
      + cbn [bind]. split; [|reflexivity]. intros _. right. split; [exact R|]. left. reflexivity.
    - cbn [bind]. pose proof (copy_id_ub (mr_id m)) as W. pose proof (copy_id_err (mr_id m)) as W'.
      destruct (copy_id (mr_id m)); cbn [bind]; [|congruence|]; split; intros H; try discriminate; try reflexivity.
      + destruct H as [H|[H _]]; [apply W in H; discriminate|lia].
      + left. apply W. reflexivity. }
  transitivity (resp_msg_to_s m = UB).
  - destruct (resp_msg_to_s m) as [r| |] eqn:X; cbn [bind].
    + assert (Y : (0 <= response r)%Z -> r_conf r <> None).
      { intros Hr. unfold resp_msg_to_s in X. destruct (Z.leb_spec 0 (mr_resp m)) as [R|R].
        - destruct (mr_conf m) as [c|]; [|discriminate].
          destruct (conf_msg_to_s c); [|discriminate|discriminate]. cbn [bind] in X.
          destruct (copy_id (mr_id m)); [|discriminate|discriminate]. cbn [bind] in X.
          injection X as <-. discriminate.
        - cbn [bind] in X. destruct (copy_id (mr_id m)); [|discriminate|discriminate]. cbn [bind] in X.
          injection X as <-. cbn [response] in Hr. lia. }
      destruct (list_eq_dec N.eq_dec (r_id r) id); cbn [negb]; [|split; discriminate].
      destruct (Z.ltb_spec (response r) 0) as [R|R]; [split; discriminate|].
      destruct (r_conf r) as [c|]; [destruct (ctype c =? ty); split; discriminate|].
      exfalso. apply (Y R). reflexivity.
    + split; discriminate.
    + split; reflexivity.
  - rewrite K. split.
    + intros H. exists m. split; [reflexivity|exact H].
    + intros (m' & M & H). injection M as <-. exact H.
Qed.
Print Assumptions enrollment_answer_safe_partial.

Lemma cstr_zero : forall l, bytes l -> Forall (fun b => 0 < b < 256) (cstr l).
Proof.
  induction 1 as [|b l H _ IH]; cbn [cstr]; [constructor|]. unfold byte in H.
  destruct (N.eqb_spec b 0); constructor; [lia|assumption].
Qed.

Lemma cstr_no_zero : forall l, ~ In 0 (cstr l).
Proof.
  induction l as [|b l IH]; cbn [cstr]; [tauto|].
  destruct (N.eqb_spec b 0) as [E|E]; cbn; [tauto|]. intros [Q|Q]; [congruence|contradiction].
Qed.

(** C85: whatever bytes arrive, a configuration that is adopted came in an
    answer to this request that was not a denial, has the type of the
    joining IPCP and names that fit and end where a C string ends. *)
Theorem enrollment_adopts_only_valid :
  forall ty id p c, boot_resp ty id p = Ok c ->
  ctype c = ty /\ ((length (lname c) <= 255)%nat /\ ~ In 0 (lname c)) /\
  (forall e, cbody c = BEth e -> (length (dev e) <= 255)%nat /\ ~ In 0 (dev e)) /\
  (ty = 1 -> exists u, cbody c = BUni u) /\
  (ty = 3 \/ ty = 4 -> exists e, cbody c = BEth e) /\
  (ty = 5 -> exists u, cbody c = BUdp u) /\
  exists m, resp_unpack (read_buf p) = Some m /\ firstn 8 (mr_id m) = id /\ (0 <= mr_resp m)%Z.
Proof.
  intros ty id p c. unfold boot_resp, resp_des.
  destruct (resp_unpack (read_buf p)) as [m|] eqn:E; [|discriminate].
  destruct (resp_msg_to_s m) as [r| |] eqn:X; cbn [bind]; try discriminate.
  destruct (list_eq_dec N.eq_dec (r_id r) id) as [I|]; cbn [negb]; [|discriminate].
  destruct (Z.ltb_spec (response r) 0) as [R|R]; [discriminate|].
  destruct (r_conf r) as [c'|] eqn:RC; [|discriminate].
  destruct (N.eqb_spec (ctype c') ty) as [T|T]; [|discriminate].
  intros Q. injection Q as ->.
  unfold resp_msg_to_s in X. destruct (Z.leb_spec 0 (mr_resp m)) as [S|S].
  2: { cbn [bind] in X. destruct (copy_id (mr_id m)); cbn [bind] in X; try discriminate.
       injection X as <-. discriminate. }
  destruct (mr_conf m) as [cm|]; [|discriminate].
  destruct (conf_msg_to_s cm) as [c2| |] eqn:CM; cbn [bind] in X; try discriminate.
  unfold copy_id, ENROLL_ID_LEN in X. destruct (Nat.leb 8 (length (mr_id m))); cbn [bind] in X; try discriminate.
  injection X as <-. cbn [r_id response r_conf] in *. injection RC as ->.
  split; [exact T|].
  unfold conf_msg_to_s, LAYER_NAME_SIZE in CM.
  destruct (Nat.leb_spec (length (cstr (ml_name (mc_layer cm)))) 255) as [L|L]; cbn [negb] in CM; [|discriminate].
  unfold IPCP_UNICAST, IPCP_ETH_LLC, IPCP_ETH_DIX, IPCP_UDP in CM.
  assert (F : exists m', Some m = Some m' /\ firstn 8 (mr_id m') = id /\ (0 <= mr_resp m')%Z).
  { exists m. split; [reflexivity|]. split; assumption. }
  destruct (N.eqb_spec (mc_type cm) 1) as [E1|E1].
  { destruct (mc_uni cm); [|discriminate]. injection CM as <-. cbn in *. subst ty.
    repeat split; try assumption; try apply cstr_no_zero; try (intros; discriminate); try (intros; lia); try (intros; eexists; reflexivity).
    }
  destruct ((mc_type cm =? 3) || (mc_type cm =? 4)) eqn:E34.
  { destruct (mc_eth cm) as [em|]; [|discriminate].
    unfold eth_msg_to_s, DEV_NAME_SIZE in CM.
    destruct (Nat.leb_spec (length (cstr (me_dev em))) 255) as [D|D]; [|discriminate].
    cbn [bind] in CM. injection CM as <-. cbn in *. subst ty.
    repeat split; try assumption; try (intros; lia); try (intros; eexists; reflexivity); try apply cstr_no_zero;
      intros; match goal with Q : BEth _ = BEth _ |- _ => injection Q as <- end;
      [exact D|apply cstr_no_zero]. }
  destruct (N.eqb_spec (mc_type cm) 5) as [E5|E5].
  { destruct (mc_udp cm); [|discriminate]. injection CM as <-. cbn in *. subst ty.
    repeat split; try assumption; try apply cstr_no_zero; try (intros; discriminate); try (intros; lia); try (intros; eexists; reflexivity). }
  injection CM as <-. cbn in *. subst ty.
  repeat split; try assumption; try apply cstr_no_zero; try (intros; discriminate); try (intros; lia).
Qed.
Print Assumptions enrollment_adopts_only_valid.

(** * The four answers, and the acknowledgement *)

Definition id8 : list N := [1; 2; 3; 4; 5; 6; 7; 8].
Definition layer1 : layer_msg := LayerMsg [108; 49] 1.
Definition dt1 : uni_msg := UniMsg (DtMsg 4 8 60 0) 0 1.
Definition bytes_of (m : resp_msg) : list N := pack (resp_fields m).

(** Full claim: no answer crashes the joining IPCP.  Refuted by an answer
    with an identifier of one byte. *)
Theorem short_id_refuted :
  ~ (forall ty id p m, resp_unpack p = Some m -> (length p <= 1024)%nat -> good_id id ->
       (0 <= mr_resp m)%Z -> ~ no_conf m ->
       (forall c, mr_conf m = Some c -> ~ long_name c /\ ~ part_missing c) ->
       boot_resp ty id p <> UB).
Proof.
  intros H. apply (H 1 id8 (bytes_of (RespMsg [1] 0 0 0 (Some (ConfMsg layer1 1 (Some dt1) None None))))
    (RespMsg [1] 0 0 0 (Some (ConfMsg layer1 1 (Some dt1) None None)))).
  - vm_compute. reflexivity.
  - vm_compute. lia.
  - split; [reflexivity|repeat constructor].
  - cbn. lia.
  - discriminate.
  - intros c Q. injection Q as <-. unfold long_name, part_missing. cbn. split.
    + intros [A|[A _]]; lia.
    + intros [[_ A]|[[A _]|[A _]]]; (discriminate || lia).
  - vm_compute. reflexivity.
Qed.
Print Assumptions short_id_refuted.

(** Refuted by an answer without a configuration. *)
Theorem no_conf_refuted :
  ~ (forall ty id p m, resp_unpack p = Some m -> (length p <= 1024)%nat -> good_id id ->
       mr_id m = id ->
       (forall c, mr_conf m = Some c -> ~ long_name c /\ ~ part_missing c) ->
       boot_resp ty id p <> UB).
Proof.
  intros H. apply (H 1 id8 (bytes_of (RespMsg id8 0 0 0 None)) (RespMsg id8 0 0 0 None)).
  - vm_compute. reflexivity.
  - vm_compute. lia.
  - split; [reflexivity|repeat constructor].
  - reflexivity.
  - discriminate.
  - vm_compute. reflexivity.
Qed.
Print Assumptions no_conf_refuted.

(** Refuted by an answer with a layer name of 256 characters. *)
Theorem long_name_refuted :
  ~ (forall ty id p m, resp_unpack p = Some m -> (length p <= 1024)%nat -> good_id id ->
       mr_id m = id -> ~ no_conf m ->
       (forall c, mr_conf m = Some c -> ~ part_missing c) ->
       boot_resp ty id p <> UB).
Proof.
  intros H.
  apply (H 2 id8 (bytes_of (RespMsg id8 0 0 0 (Some (ConfMsg (LayerMsg (repeat 97 256) 1) 2 None None None))))
    (RespMsg id8 0 0 0 (Some (ConfMsg (LayerMsg (repeat 97 256) 1) 2 None None None)))).
  - vm_compute. reflexivity.
  - vm_compute. lia.
  - split; [reflexivity|repeat constructor].
  - reflexivity.
  - discriminate.
  - intros c Q. injection Q as <-. unfold part_missing. cbn. intros [[A _]|[[A _]|[A _]]]; lia.
  - vm_compute. reflexivity.
Qed.
Print Assumptions long_name_refuted.

(** Refuted by an answer of type unicast without the unicast part. *)
Theorem part_missing_refuted :
  ~ (forall ty id p m, resp_unpack p = Some m -> (length p <= 1024)%nat -> good_id id ->
       mr_id m = id -> ~ no_conf m ->
       (forall c, mr_conf m = Some c -> ~ long_name c) ->
       boot_resp ty id p <> UB).
Proof.
  intros H.
  apply (H 1 id8 (bytes_of (RespMsg id8 0 0 0 (Some (ConfMsg layer1 1 None None None))))
    (RespMsg id8 0 0 0 (Some (ConfMsg layer1 1 None None None)))).
  - vm_compute. reflexivity.
  - vm_compute. lia.
  - split; [reflexivity|repeat constructor].
  - reflexivity.
  - discriminate.
  - intros c Q. injection Q as <-. unfold long_name. cbn. intros [A|[A _]]; lia.
  - vm_compute. reflexivity.
Qed.
Print Assumptions part_missing_refuted.

(** The member that waits for the acknowledgement: full claim, no packet
    crashes it.  Refuted by an acknowledgement with a short identifier. *)
Theorem short_ack_refuted : ~ (forall p, handle_ack p <> UB).
Proof.
  intros H. apply (H (Some (pack (ack_fields (AckMsg [1; 2; 3] 0))))). vm_compute. reflexivity.
Qed.
Print Assumptions short_ack_refuted.

(** What is true: only those. *)
Theorem enrollment_ack_safe_partial :
  forall p, handle_ack (Some p) = UB <->
  exists m, ack_unpack (read_buf p) = Some m /\ (length (mk_id m) < 8)%nat.
Proof.
  intros p. unfold handle_ack, ack_des. destruct (ack_unpack (read_buf p)) as [m|].
  - unfold ack_msg_to_s. pose proof (copy_id_ub (mk_id m)) as W. pose proof (copy_id_err (mk_id m)) as W'.
    destruct (copy_id (mk_id m)); cbn [bind]; [|congruence|]; split; intros H; try discriminate; try reflexivity.
    + destruct H as (x & X & H). injection X as <-. apply W in H. discriminate.
    + exists m. split; [reflexivity|]. apply W. reflexivity.
  - split; [discriminate|]. intros (m & M & _). discriminate.
Qed.
Print Assumptions enrollment_ack_safe_partial.

(** The member reports an enrollment as completed only when the IPCP it
    answered says so: refuted, the identifier of the acknowledgement is not
    part of the decision. *)
Theorem foreign_ack_refuted :
  ~ (forall own now q p id r, good_conf own -> good_time now -> boot_req id = Ok q ->
       handle_req own now q <> UB -> handle_ack (Some p) = Ok 0%Z ->
       send_ack r 0%Z = Ok p -> r = id).
Proof.
  intros H.
  assert (K : [9; 9; 9; 9; 9; 9; 9; 9] = id8).
  { eapply (H (Conf [108] 1 2 NoBody) (0, 0)%Z (pack (req_fields id8))
           (pack (ack_fields (AckMsg [9; 9; 9; 9; 9; 9; 9; 9] 0)))).
    - unfold good_conf, name255. cbn. repeat split; try lia; repeat constructor; lia.
    - split; cbn; lia.
    - vm_compute. reflexivity.
    - vm_compute. discriminate.
    - vm_compute. reflexivity.
    - vm_compute. reflexivity. }
  discriminate K.
Qed.
Print Assumptions foreign_ack_refuted.

(** * Concrete cases *)

Example enroll_unicast :
  let own := Conf [110; 49] 1 1 (BUni (Uni 4 8 60 0 0 1)) in
  good_conf own /\ good_time (1700000000, 5)%Z /\ good_id id8 /\
  exists q p, boot_req id8 = Ok q /\ handle_req own (1700000000, 5)%Z q = Ok p /\
    boot_resp 1 id8 p = Ok own /\ boot_resp 2 id8 p = Err /\
    length q = 10%nat /\ length p = 48%nat.
Proof.
  cbv zeta. repeat split; cbn; try lia; try (repeat constructor; lia).
  exists (pack (req_fields id8)). eexists. repeat split; vm_compute; reflexivity.
Qed.

(** C85: the member reports a completed enrollment only when a packet came
    that is an acknowledgement (a message with fields 1, at least eight
    bytes, and 2) in which the number is 0.  No packet, and bytes that are
    no such message, are never taken for one. *)
Theorem enrollment_completed_only_if_acked : forall p,
  handle_ack p = Ok 0%Z ->
  exists b fs i r, p = Some b /\ unpack (firstn 1024 b) = Some fs /\
    len_field 1 fs = Some (Some i) /\ (8 <= length i)%nat /\
    num_field 2 fs = Some (Some r) /\ i32 r = 0%Z.
Proof.
  intros [b|] H; [|discriminate H]. unfold handle_ack in H. exists b.
  unfold ack_des, ack_unpack in H.
  change (N.to_nat ENROLL_BUF_LEN) with 1024%nat in *.
  unfold read_buf in H. change (N.to_nat ENROLL_BUF_LEN) with 1024%nat in H.
  destruct (unpack (firstn 1024 b)) as [fs|] eqn:U; [|discriminate H]. cbn [obind] in H.
  destruct (len_field 1 fs) as [[i|]|] eqn:L1; cbn [req obind] in H; try discriminate H.
  destruct (num_field 2 fs) as [[r|]|] eqn:L2; cbn [req obind] in H; try discriminate H.
  unfold ack_msg_to_s in H. cbn [mk_id mk_res] in H. unfold copy_id in H.
  destruct (Nat.leb_spec ENROLL_ID_LEN (length i)) as [G|G]; [|discriminate H].
  cbn [bind] in H. cbn in H. injection H as H.
  exists fs, i, r. repeat split; try assumption.
Qed.
Print Assumptions enrollment_completed_only_if_acked.

Example enroll_no_ack : handle_ack None = Ok (-100)%Z /\ handle_ack (Some [7; 7; 7]) = Ok (-100)%Z.
Proof. split; vm_compute; reflexivity. Qed.
