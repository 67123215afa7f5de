(** Properties of connection establishment. *)
From Coq Require Import NArith ZArith List Bool Lia ZifyBool ZifyNat ZifyN.
From Verif Require Import WireModel WireProofs EnrollModel CepModel CepSpec.
Import ListNotations.
Local Open Scope N_scope.

Definition cmsg (i : info) : cep_msg :=
  CepMsg (comp_name i) (protocol i) (to_i32 (version i)) (to_i32 (syntax i)) (addr i).

Lemma put_tag : forall n, n < 128 -> length (put_varint n) = 1%nat.
Proof.
  intros n H. pose proof (put_len 0 n) as P. change (2 ^ (7 * N.of_nat 1)) with 128 in P.
  specialize (P H). lia.
Qed.

Lemma i32_small : forall n, n < 2 ^ 31 -> to_i32 n = Z.of_N n.
Proof.
  intros n H. unfold to_i32, i32. rewrite u32_small.
  - change (2 ^ 31) with 2147483648 in H.
    destruct (Z.ltb_spec (Z.of_N n) (2 ^ 31)) as [E|E]; [reflexivity|].
    change (2 ^ 31)%Z with 2147483648%Z in E. lia.
  - change (2 ^ 31) with 2147483648 in H. change (2 ^ 32) with 4294967296. lia.
Qed.
Lemma i32_range : forall n, (- 2 ^ 31 <= i32 n < 2 ^ 31)%Z.
Proof.
  intros n. unfold i32, u32. pose proof (N.mod_lt n (2 ^ 32)).
  change (2 ^ 32)%Z with 4294967296%Z. change (2 ^ 31)%Z with 2147483648%Z.
  change (2 ^ 32) with 4294967296 in *.
  match goal with |- context [(?a <? ?b)%Z] => destruct (Z.ltb_spec a b) end; lia.
Qed.
Lemma of_to_i32 : forall n, n < 2 ^ 32 -> of_i32 (to_i32 n) = n.
Proof.
  intros n H. unfold of_i32, to_i32, i32. rewrite u32_small by exact H.
  change (2 ^ 32) with 4294967296 in H. change (2 ^ 32)%Z with 4294967296%Z.
  change (2 ^ 31)%Z with 2147483648%Z.
  destruct (Z.ltb_spec (Z.of_N n) 2147483648).
  - rewrite Z.mod_small by lia. lia.
  - replace (Z.of_N n - 4294967296)%Z with (Z.of_N n + (-1) * 4294967296)%Z by lia.
    rewrite Z.mod_add by lia. rewrite Z.mod_small by lia. lia.
Qed.
Lemma sext_small : forall n, n < 2 ^ 31 -> sext (to_i32 n) = n.
Proof.
  intros n H. rewrite i32_small by exact H. unfold sext.
  change (2 ^ 31) with 2147483648 in H. rewrite Z.mod_small by (change (2 ^ 64)%Z with 18446744073709551616%Z; lia).
  lia.
Qed.

Local Opaque put_varint.

Lemma cep_len : forall i, good_info i -> short_names i ->
  (length (pack (cep_fields (cmsg i))) <= 128)%nat.
Proof.
  intros i (A & B & C & D & V & Y & Z) S. unfold short_names in S.
  unfold cep_fields, cmsg, pack. cbn [cm_comp cm_proto cm_version cm_syntax cm_addr flat_map put_field].
  rewrite !app_length. cbn [length].
  rewrite (put_tag (8 * 1 + 2)), (put_tag (8 * 2 + 2)), (put_tag (8 * 3)), (put_tag (8 * 5)),
    (put_tag (8 * 8)) by lia.
  rewrite (put_tag (N.of_nat (length (comp_name i)))), (put_tag (N.of_nat (length (protocol i)))) by lia.
  pose proof (put_len10 (sext (to_i32 (version i)))). pose proof (put_len10 (addr i)).
  rewrite (sext_small (syntax i)) by exact Y.
  pose proof (put_len 4 (syntax i)) as P.
  assert (Q : syntax i < 2 ^ (7 * N.of_nat 5)).
  { eapply N.lt_trans; [exact Y|]. reflexivity. }
  specialize (P Q ltac:(lia)). lia.
Qed.

Lemma cep_ok : forall i, good_info i -> Forall ok_field (cep_fields (cmsg i)).
Proof.
  intros i (A & B & C & D & V & Y & Z). unfold cep_fields, cmsg.
  cbn [cm_comp cm_proto cm_version cm_syntax cm_addr].
  repeat (apply Forall_cons || apply Forall_nil); (split; cbn [fst snd]; [reflexivity|]);
    try apply sext_lt; try assumption; unfold INT_MAX; lia.
Qed.

Lemma snd_ok : forall i, good_info i -> cep_snd i = Ok (pack (cep_fields (cmsg i))).
Proof.
  intros i (A & B & C & D & V & Y & Z). unfold cep_snd. rewrite i32_small by exact Y.
  destruct (Z.ltb_spec (Z.of_N (syntax i)) 0); [lia|]. rewrite <- i32_small by exact Y. reflexivity.
Qed.

Lemma rcv_ok : forall i, good_info i -> (length (pack (cep_fields (cmsg i))) <= 128)%nat ->
  cep_rcv (pack (cep_fields (cmsg i))) = Ok i.
Proof.
  intros i H L. pose proof H as (A & B & C & D & V & Y & Z).
  unfold cep_rcv, CEP_BUF_SIZE. rewrite firstn_all2 by exact L.
  unfold cep_unpack. rewrite unpack_pack by (apply cep_ok; exact H).
  unfold cmsg, cep_fields. cbn -[i32 sext u64 to_i32 cstr Nat.leb of_i32].
  rewrite (i32_sext (to_i32 (version i))), (i32_sext (to_i32 (syntax i))) by apply i32_range.
  rewrite u64_small by exact Z. cbn [cm_comp cm_proto cm_version cm_syntax cm_addr].
  rewrite !cstr_id by assumption. unfold OCEP_BUF_STRLEN.
  destruct (Nat.leb_spec (length (comp_name i)) 128); [|lia].
  destruct (Nat.leb_spec (length (protocol i)) 128); [|lia]. cbn [negb].
  assert (syntax i < 2 ^ 32) by (eapply N.lt_trans; [exact Y|reflexivity]).
  rewrite !of_to_i32 by assumption. destruct i; reflexivity.
Qed.

(** C86: what one end sends is what the other end receives, if the names
    are short.  Missing for the full claim (every struct conn_info): longer
    names; see [long_names_refuted]. *)
Theorem cep_received_as_sent_partial :
  forall i, good_info i -> short_names i ->
  exists p, cep_snd i = Ok p /\ cep_rcv p = Ok i.
Proof.
  intros i H S. exists (pack (cep_fields (cmsg i))). split; [apply snd_ok; exact H|].
  apply rcv_ok; [exact H|]. apply cep_len; assumption.
Qed.
Print Assumptions cep_received_as_sent_partial.

(** Refuted: two names of 60 characters are within the limits of the
    structure, but what is sent is not received. *)
Theorem long_names_refuted :
  ~ (forall i p, good_info i -> cep_snd i = Ok p -> cep_rcv p = Ok i).
Proof.
  intros H.
  assert (K : cep_rcv (pack (cep_fields (cmsg (Info (repeat 97 60) (repeat 98 60) 1 0 7)))) =
              Ok (Info (repeat 97 60) (repeat 98 60) 1 0 7)).
  { apply H; [|vm_compute; reflexivity]. unfold good_info, cstring. cbn.
    repeat split; try lia; repeat constructor; lia. }
  vm_compute in K. discriminate K.
Qed.
Print Assumptions long_names_refuted.

Lemma in_datasum : forall fs f, In f fs -> (S (datalen f) <= datasum fs)%nat.
Proof.
  induction fs as [|x fs IH]; intros f H; [destruct H|]. cbn [datasum].
  destruct H as [->|H]; [lia|]. specialize (IH f H). lia.
Qed.

Lemma rcv_defined : forall p, cep_rcv p <> UB.
Proof.
  intros p. unfold cep_rcv. set (b := firstn CEP_BUF_SIZE p).
  assert (Lb : (length b <= 128)%nat) by (unfold b, CEP_BUF_SIZE; apply firstn_le_length).
  unfold cep_unpack. destruct (unpack b) as [fs|] eqn:E; cbn [obind]; [|discriminate].
  apply unpack_len in E.
  destruct (rep_ok 4 fs && rep_ok 6 fs); cbn [negb]; [|discriminate].
  destruct (msg_field syntax_unpack later 7 fs); cbn [obind]; [|discriminate].
  destruct (len_field 1 fs) as [[c|]|]; cbn [req obind]; try discriminate.
  destruct (len_field 2 fs) as [[q|]|] eqn:F; cbn [req obind]; try discriminate.
  apply len_field_in, in_datasum in F. unfold datalen in F; cbn [snd] in F.
  destruct (num_field 3 fs) as [[v|]|]; cbn [req obind]; try discriminate.
  destruct (num_field 5 fs) as [[s|]|]; cbn [req obind]; try discriminate.
  destruct (num_field 8 fs) as [[a|]|]; cbn [req obind]; try discriminate.
  cbn [cm_comp cm_proto].
  destruct (Nat.leb (length (cstr c)) OCEP_BUF_STRLEN); cbn [negb]; [|discriminate].
  pose proof (cstr_len q). unfold OCEP_BUF_STRLEN.
  destruct (Nat.leb_spec (length (cstr q)) 128); cbn [negb]; [discriminate|lia].
Qed.

(** C86: no packet makes the receiver write outside its buffers, although
    it checks only one of the two names. *)
Theorem cep_receive_safe :
  forall p, cep_rcv p <> UB /\
  forall i, cep_rcv p = Ok i ->
    (length (comp_name i) <= 128)%nat /\ (length (protocol i) <= 128)%nat.
Proof.
  intros p. split; [apply rcv_defined|]. intros i. unfold cep_rcv.
  destruct (cep_unpack (firstn CEP_BUF_SIZE p)) as [m|]; [|discriminate].
  unfold OCEP_BUF_STRLEN.
  destruct (Nat.leb_spec (length (cstr (cm_comp m))) 128); cbn [negb]; [|discriminate].
  destruct (Nat.leb_spec (length (cstr (cm_proto m))) 128); cbn [negb]; [|discriminate].
  intros Q. injection Q as <-. cbn. split; assumption.
Qed.
Print Assumptions cep_receive_safe.

Lemma list_eqb_spec : forall a b, list_eqb a b = true <-> a = b.
Proof. intros. unfold list_eqb. destruct (list_eq_dec N.eq_dec a b); split; congruence. Qed.

Lemma get_id_some : forall name cs k i, get_id_by_name name cs k = Some i ->
  exists j c, i = (k + j)%nat /\ first_named name cs j c /\ nth j cs None = c.
Proof.
  induction cs as [|c cs IH]; intros k i H; cbn [get_id_by_name] in H; [discriminate|].
  destruct (list_eqb name (name_of c)) eqn:E.
  - apply list_eqb_spec in E. injection H as <-. exists 0%nat, c.
    split; [lia|]. split; [apply first_here; congruence|reflexivity].
  - destruct (IH _ _ H) as (j & d & J & F & X). exists (S j), d. split; [lia|]. split.
    + apply first_later; [|exact F]. intros Q. rewrite <- Q in E.
      assert (list_eqb (name_of c) (name_of c) = true) by (apply list_eqb_spec; reflexivity). congruence.
    + exact X.
Qed.
Lemma get_id_first : forall name cs j c, first_named name cs j c -> forall k,
  get_id_by_name name cs k = Some (k + j)%nat /\ nth j cs None = c.
Proof.
  induction 1 as [c cs E|c cs i d E F IH]; intros k; cbn [get_id_by_name].
  - assert (list_eqb name (name_of c) = true) as -> by (apply list_eqb_spec; congruence).
    split; [f_equal; lia|reflexivity].
  - destruct (list_eqb name (name_of c)) eqn:Q.
    + apply list_eqb_spec in Q. congruence.
    + destruct (IH (S k)) as [-> X]. split; [f_equal; lia|exact X].
Qed.
Lemma get_id_none : forall name cs k, none_named name cs -> get_id_by_name name cs k = None.
Proof.
  induction cs as [|c cs IH]; intros k H; cbn [get_id_by_name]; [reflexivity|].
  destruct (list_eqb name (name_of c)) eqn:E.
  - apply list_eqb_spec in E. exfalso. apply (H c); [left; reflexivity|congruence].
  - apply IH. intros d D. apply H. right. exact D.
Qed.

Lemma check_same : forall own r p, cep_rcv p = Ok r ->
  (same_proto own r -> check_reply own p = Ok r) /\ (~ same_proto own r -> check_reply own p = Err).
Proof.
  intros own r p H. unfold check_reply. rewrite H. cbn [bind]. unfold same_proto.
  destruct (list_eqb (protocol own) (protocol r)) eqn:E1; cbn [negb].
  2: { split; intros Q; [|reflexivity]. destruct Q as (Q & _).
       apply list_eqb_spec in Q. congruence. }
  apply list_eqb_spec in E1.
  destruct (N.eqb_spec (version own) (version r)) as [E2|E2]; cbn [negb].
  2: { split; intros Q; [|reflexivity]. tauto. }
  destruct (N.eqb_spec (syntax own) (syntax r)) as [E3|E3]; cbn [negb].
  - split; intros Q; [reflexivity|]. exfalso. tauto.
  - split; intros Q; [|reflexivity]. tauto.
Qed.

Lemma zero_good : good_info zero_info /\ short_names zero_info.
Proof.
  unfold good_info, short_names, cstring, zero_info. cbn. repeat split; try lia; constructor.
Qed.

(** C86: the exchange on a flow without loss.  The requester's component
    and the components of the acceptor are any, with short names; those
    looked at are initialised.
    - The requester gets a connection exactly if the acceptor has a
      component of that name whose protocol, version and syntax are its
      own, and then it knows that component's name and address.
    - The acceptor has then added a connection of that component, with the
      requester's information.
    - If the acceptor has no component of that name it closes the flow.
    Missing for the full claim (both or neither end have a connection): see
    [one_sided_connection_refuted], [refusal_accepted_refuted] and
    [empty_name_refuted]. *)
Theorem connection_agreed_partial :
  forall own cs, good_info own -> short_names own ->
  (forall c, In (Some c) cs -> good_info c /\ short_names c) ->
  (forall j c, first_named (comp_name own) cs j (Some c) ->
     exists r, exchange own cs = Ok (r, Added j own (pack (cep_fields (cmsg c)))) /\
       (same_proto own c -> r = Ok c) /\ (~ same_proto own c -> r = Err)) /\
  (none_named (comp_name own) cs ->
     exists r a, exchange own cs = Ok (r, Closed a) /\
       (~ same_proto own zero_info -> r = Err)).
Proof.
  intros own cs G S C. destruct (cep_received_as_sent_partial own G S) as (p & P1 & P2).
  unfold exchange, request. rewrite P1. cbn [bind]. unfold accept_flow. rewrite P2.
  split.
  - intros j c F. destruct (get_id_first _ _ _ _ F 0%nat) as [-> X]. cbn [Nat.add]. rewrite X.
    cbn [info_of].
    assert (I : In (Some c) cs).
    { clear - F. revert F. generalize (Some c). intros d F. induction F; [left; reflexivity|right; assumption]. }
    destruct (C c I) as (G' & S'). rewrite snd_ok by exact G'. cbn [bind].
    assert (R : cep_rcv (pack (cep_fields (cmsg c))) = Ok c)
      by (apply rcv_ok; [exact G'|apply cep_len; assumption]).
    eexists. split; [reflexivity|]. exact (check_same own c _ R).
  - intros F. rewrite get_id_none by exact F. destruct zero_good as (G' & S').
    rewrite snd_ok by exact G'. cbn [bind]. eexists. eexists. split; [reflexivity|].
    apply check_same. apply rcv_ok; [exact G'|apply cep_len; assumption].
Qed.
Print Assumptions connection_agreed_partial.

(** Refuted: if one end has a connection the other has one.  The acceptor
    does not compare the protocols; here "dtp" version 1 asks "dtp"
    version 2. *)
Definition dt_v (v : N) : info := Info [68; 84] [100; 116; 112] v 2 77.
Theorem one_sided_connection_refuted :
  ~ (forall own cs r j a reply, good_info own -> short_names own ->
       (forall c, In c cs -> c <> None) ->
       exchange own cs = Ok (r, Added j a reply) -> r <> Err).
Proof.
  intros H. eapply (H (dt_v 1) [Some (dt_v 2)]).
  - unfold good_info, cstring; cbn. repeat split; try lia; repeat constructor; lia.
  - unfold short_names; cbn; lia.
  - intros c [<-|[]]. discriminate.
  - vm_compute. reflexivity.
  - reflexivity.
Qed.
Print Assumptions one_sided_connection_refuted.

(** Refuted: a requester that is refused knows it.  A refusal is an empty
    struct conn_info, which a component that left its protocol empty takes
    for an acceptance: this is the data transfer component of the broadcast
    IPCP (broadcast/dt.c:250-254). *)
Definition bc_dt : info := Info [68; 97; 116; 97; 32; 84] [] 0 0 0.
Theorem refusal_accepted_refuted :
  ~ (forall own cs r a, good_info own -> short_names own -> comp_name own <> [] ->
       none_named (comp_name own) cs -> exchange own cs = Ok (r, Closed a) -> r = Err).
Proof.
  intros H.
  assert (K : Ok zero_info = Err).
  { eapply (H bc_dt [Some (dt_v 1)]).
    - unfold good_info, cstring; cbn. repeat split; try lia; repeat constructor; lia.
    - unfold short_names; cbn; lia.
    - discriminate.
    - intros c [<-|[]]. discriminate.
    - vm_compute. reflexivity. }
  discriminate K.
Qed.
Print Assumptions refusal_accepted_refuted.

(** Refuted: no request crashes the acceptor.  The broadcast IPCP never
    initialises its third component, and a request for the component with
    the empty name finds it. *)
Theorem empty_name_refuted :
  ~ (forall cs p, (exists c, In (Some c) cs) -> accept_flow cs p <> UB).
Proof.
  intros H.
  apply (H [Some bc_dt; Some (dt_v 1); None] (pack (cep_fields (cmsg zero_info)))).
  - exists bc_dt. left. reflexivity.
  - vm_compute. reflexivity.
Qed.
Print Assumptions empty_name_refuted.

(** What is true: with every component initialised, no packet harms the
    acceptor. *)
Theorem accept_safe_partial :
  forall cs p, (forall c, In c cs -> c <> None) -> accept_flow cs p <> UB.
Proof.
  intros cs p H. unfold accept_flow. pose proof (rcv_defined p) as R.
  destruct (cep_rcv p) as [i| |]; [|discriminate|congruence].
  destruct (get_id_by_name (comp_name i) cs 0) as [id|] eqn:E.
  - destruct (get_id_some _ _ _ _ E) as (j & c & J & F & X). cbn [Nat.add] in J. subst id. rewrite X.
    assert (I : In c cs).
    { clear - F. induction F; [left; reflexivity|right; assumption]. }
    destruct c as [c|]; [|exfalso; apply (H _ I); reflexivity].
    unfold cep_snd. destruct (to_i32 (syntax (info_of (Some c))) <? 0)%Z; discriminate.
  - unfold cep_snd. destruct (to_i32 (syntax zero_info) <? 0)%Z; discriminate.
Qed.
Print Assumptions accept_safe_partial.

Example exchange_ok :
  good_info (dt_v 1) /\ short_names (dt_v 1) /\
  first_named (comp_name (dt_v 1)) [Some bc_dt; Some (dt_v 1)] 1 (Some (dt_v 1)) /\
  same_proto (dt_v 1) (dt_v 1) /\ ~ same_proto (dt_v 1) zero_info /\
  none_named (comp_name (dt_v 1)) [Some bc_dt] /\
  exists a, exchange (dt_v 1) [Some bc_dt; Some (dt_v 1)] = Ok (Ok (dt_v 1), Added 1 (dt_v 1) a).
Proof.
  split; [unfold good_info, cstring; cbn; repeat split; try lia; repeat constructor; lia|].
  split; [unfold short_names; cbn; lia|].
  split; [apply first_later; [discriminate|apply first_here; reflexivity]|].
  split; [repeat split|]. split; [intros (A & _); discriminate|].
  split; [intros c [<-|[]]; discriminate|]. eexists. vm_compute. reflexivity.
Qed.
