From Coq Require Import List Arith NArith Bool Lia ZifyNat ZifyN ZifyBool.
From Verif Require Import Bytes DtModel DtSpec.
Import ListNotations.
Open Scope N_scope.

Section WithInfo.
Variable i : dt_info.
Hypothesis Hsz : (addr_size i <= 8)%nat.

Lemma head_size_eq : head_size i = (addr_size i + 11)%nat.
Proof. unfold head_size, eid_o, ecn_o, ttl_o, qc_o, QOS_LEN, TTL_LEN, ECN_LEN, eid_size. lia. Qed.
Lemma wire_length : forall d q t c e, length (wire (addr_size i) d q t c e) = head_size i.
Proof.
  intros. rewrite head_size_eq. unfold wire. rewrite !app_length, !le_length. cbn [length]. lia.
Qed.

Lemma put_at : forall off a b b' c, off = length a -> length b = length b' ->
  put (a ++ b ++ c) off b' = Some (a ++ b' ++ c).
Proof. intros; subst; apply put_app; auto. Qed.
Lemma get_at : forall off a b c n, off = length a -> length b = n ->
  get (a ++ b ++ c) off n = Some b.
Proof. intros; subst; apply get_app; auto. Qed.

Lemma put_at0 : forall b b' c, length b = length b' -> put (b ++ c) 0 b' = Some (b' ++ c).
Proof. intros. apply (put_app [] b b' c). auto. Qed.

Lemma junk_split : forall junk : list N, length junk = head_size i ->
  exists a q t c e, junk = a ++ [q] ++ [t] ++ [c] ++ e /\ length a = addr_size i /\ length e = 8%nat.
Proof.
  intros junk H. rewrite head_size_eq in H.
  destruct (split3 junk 0 (addr_size i)) as (z & a & r & E & Hz & Ha); [lia|].
  destruct z; [|discriminate]. cbn [app] in E. subst junk.
  rewrite app_length in H.
  destruct r as [|q [|t [|c e]]]; cbn [length] in H; try lia.
  exists a, q, t, c, e. repeat split; auto; lia.
Qed.

Lemma ser_wire : forall junk payload p, length junk = head_size i ->
  dt_pci_ser i (junk ++ payload) p =
  Some (wire (addr_size i) (dst_addr p) (qc p mod 256) (max_ttl i mod 256) (ecn p mod 256) (eid p)
        ++ payload).
Proof.
  intros junk payload p H.
  destruct (junk_split junk H) as (a & q & t & c & e & -> & Ha & He).
  unfold dt_pci_ser, from64. replace (Nat.leb (addr_size i) 8) with true by (symmetry; apply Nat.leb_le; lia).
  cbn [bind]. rewrite <- !app_assoc.
  rewrite put_at0; [|rewrite le_length; auto].
  cbn [bind app]. set (A := le (addr_size i) (dst_addr p)).
  assert (HA : length A = addr_size i) by apply le_length.
  change (A ++ q :: t :: c :: e ++ payload) with (A ++ [q] ++ (t :: c :: e ++ payload)).
  rewrite (put_at (qc_o i) A [q]); [|unfold qc_o; lia|reflexivity]. cbn [bind le QOS_LEN].
  replace (A ++ [qc p mod 256] ++ t :: c :: e ++ payload)
    with ((A ++ [qc p mod 256]) ++ [t] ++ (c :: e ++ payload)) by (rewrite <- app_assoc; reflexivity).
  rewrite (put_at (ttl_o i)); [|rewrite app_length; unfold ttl_o, qc_o, QOS_LEN; cbn [length]; lia|reflexivity].
  cbn [bind le TTL_LEN].
  replace ((A ++ [qc p mod 256]) ++ [max_ttl i mod 256] ++ c :: e ++ payload)
    with ((A ++ [qc p mod 256] ++ [max_ttl i mod 256]) ++ [c] ++ (e ++ payload))
    by (rewrite <- !app_assoc; reflexivity).
  rewrite (put_at (ecn_o i));
    [|rewrite !app_length; unfold ecn_o, ttl_o, qc_o, QOS_LEN, TTL_LEN; cbn [length]; lia|reflexivity].
  cbn [bind le ECN_LEN]. change (Nat.leb eid_size 8) with true. cbn [bind].
  match goal with |- put ?b _ _ = _ =>
    replace b with ((A ++ [qc p mod 256] ++ [max_ttl i mod 256] ++ [ecn p mod 256]) ++ e ++ payload)
      by (rewrite <- !app_assoc; reflexivity) end.
  rewrite (put_at (eid_o i));
    [|rewrite !app_length; unfold eid_o, ecn_o, ttl_o, qc_o, QOS_LEN, TTL_LEN, ECN_LEN; cbn [length]; lia
     |rewrite le_length; auto].
  unfold wire. rewrite <- !app_assoc. reflexivity.
Qed.

Lemma unle1 : forall b, unle [b] = b.
Proof. intros. cbn [unle]. lia. Qed.

(** Field accesses in a packet of the wire format. *)
Lemma get_dst : forall d q t c e pl,
  get (wire (addr_size i) d q t c e ++ pl) 0 (addr_size i) = Some (le (addr_size i) d).
Proof.
  intros. unfold wire. rewrite <- !app_assoc.
  apply (get_at 0 [] (le (addr_size i) d)); [reflexivity|apply le_length].
Qed.
Lemma get_qc : forall d q t c e pl,
  get (wire (addr_size i) d q t c e ++ pl) (qc_o i) QOS_LEN = Some [q].
Proof.
  intros. unfold wire. rewrite <- !app_assoc.
  apply get_at; [|reflexivity]. rewrite le_length. reflexivity.
Qed.
Lemma get_ttl : forall d q t c e pl,
  get (wire (addr_size i) d q t c e ++ pl) (ttl_o i) TTL_LEN = Some [t].
Proof.
  intros. unfold wire. rewrite <- !app_assoc. rewrite app_assoc.
  apply get_at; [|reflexivity]. rewrite app_length, le_length. reflexivity.
Qed.
Lemma get_ecn : forall d q t c e pl,
  get (wire (addr_size i) d q t c e ++ pl) (ecn_o i) ECN_LEN = Some [c].
Proof.
  intros. unfold wire. rewrite <- !app_assoc.
  rewrite (app_assoc [q]), app_assoc.
  apply get_at; [|reflexivity]. rewrite !app_length, le_length. unfold ecn_o, ttl_o, qc_o, QOS_LEN, TTL_LEN.
  cbn [length]. lia.
Qed.
Lemma get_eid : forall d q t c e pl,
  get (wire (addr_size i) d q t c e ++ pl) (eid_o i) eid_size = Some (le 8 e).
Proof.
  intros. unfold wire. rewrite <- !app_assoc.
  rewrite (app_assoc [t]), (app_assoc [q]), app_assoc.
  apply get_at; [|apply le_length]. rewrite !app_length, le_length.
  unfold eid_o, ecn_o, ttl_o, qc_o, QOS_LEN, TTL_LEN, ECN_LEN. cbn [length]. lia.
Qed.
Lemma put_ttl : forall d q t c e pl t',
  put (wire (addr_size i) d q t c e ++ pl) (ttl_o i) [t'] = Some (wire (addr_size i) d q t' c e ++ pl).
Proof.
  intros. unfold wire. rewrite <- !app_assoc. rewrite (app_assoc (le _ d)).
  rewrite (put_at (ttl_o i)); [|rewrite app_length, le_length; reflexivity|reflexivity].
  rewrite <- !app_assoc. reflexivity.
Qed.
Lemma put_ecn : forall d q t c e pl c',
  put (wire (addr_size i) d q t c e ++ pl) (ecn_o i) [c'] = Some (wire (addr_size i) d q t c' e ++ pl).
Proof.
  intros. unfold wire. rewrite <- !app_assoc. rewrite (app_assoc [q]), (app_assoc (le _ d)).
  rewrite (put_at (ecn_o i));
    [|rewrite !app_length, le_length; unfold ecn_o, ttl_o, qc_o, QOS_LEN, TTL_LEN; cbn [length]; lia
     |reflexivity].
  rewrite <- !app_assoc. reflexivity.
Qed.
Lemma get_payload : forall d q t c e pl,
  let b := wire (addr_size i) d q t c e ++ pl in
  get b (head_size i) (length b - head_size i) = Some pl.
Proof.
  intros. subst b. replace (wire (addr_size i) d q t c e ++ pl)
    with (wire (addr_size i) d q t c e ++ pl ++ []) by (rewrite app_nil_r; reflexivity).
  apply get_at; [rewrite wire_length; reflexivity|].
  rewrite !app_length, wire_length. cbn [length]. lia.
Qed.

Lemma des_wire : forall d q t c e pl,
  d < 256 ^ N.of_nat (addr_size i) -> e < 2 ^ 64 ->
  dt_pci_des i (wire (addr_size i) d q t c e ++ pl) =
  Some (wire (addr_size i) d q ((t + 255) mod 256) c e ++ pl,
        mk_pci d q ((t + 255) mod 256) c e).
Proof.
  intros d q t c e pl Hd He. unfold dt_pci_des.
  replace (Nat.leb (addr_size i) 8) with true by (symmetry; apply Nat.leb_le; lia).
  rewrite get_ttl. cbn [bind]. rewrite unle1, put_ttl. cbn [bind].
  rewrite get_dst, get_qc, get_ttl, get_ecn, get_eid. cbn [bind].
  rewrite !unle1, !unle_le; auto.
Qed.

Lemma handler_wire : forall n cube d q t c e pl,
  d < 256 ^ N.of_nat (addr_size i) -> e < 2 ^ 64 ->
  packet_handler i n cube (wire (addr_size i) d q t c e ++ pl) =
  Some (if d =? own_addr n then
          if 64 <=? e then ToFlow e c pl else if comp n e then ToComp e pl else Dropped
        else if (t + 255) mod 256 =? 0 then Dropped
        else match nhop n cube d with
             | None => Dropped
             | Some fd => if flow_up n fd
                          then Forwarded fd (wire (addr_size i) d q ((t + 255) mod 256)
                                                  (calc_ecn n fd c mod 256) e ++ pl)
                          else Dropped
             end).
Proof.
  intros n cube d q t c e pl Hd He. unfold packet_handler.
  rewrite des_wire by auto. cbn [bind dst_addr ttl eid].
  destruct (d =? own_addr n) eqn:Eo; cbn [negb].
  - rewrite get_payload. cbn [bind]. unfold PROG_RES_FDS.
    destruct (64 <=? e); [rewrite get_ecn; cbn [bind]; rewrite unle1; reflexivity|].
    destruct (comp n e); reflexivity.
  - destruct ((t + 255) mod 256 =? 0); [reflexivity|].
    destruct (nhop n cube d); [|reflexivity].
    rewrite get_ecn. cbn [bind]. rewrite unle1. cbn [le]. rewrite put_ecn. cbn [bind].
    destruct (flow_up n n0); reflexivity.
Qed.

(** What a finished journey of a wire-format packet looks like. *)
Lemma travel_wire : forall hops d q t c e pl k r,
  d < 256 ^ N.of_nat (addr_size i) -> e < 2 ^ 64 ->
  travel i hops (wire (addr_size i) d q t c e ++ pl) = Some (k, r) ->
  (k <= N.to_nat ((t + 255) mod 256))%nat /\
  match r with
  | None | Some (_, Dropped) => True
  | Some (_, Forwarded _ _) => False
  | Some (n, ToFlow e' _ pl') => own_addr n = d /\ e' = e /\ 64 <= e /\ pl' = pl
  | Some (n, ToComp e' pl') => own_addr n = d /\ e' = e /\ e < 64 /\ comp n e = true /\ pl' = pl
  end.
Proof.
  induction hops as [|[n cube] hops IH]; intros d q t c e pl k r Hd He E.
  - cbn [travel] in E. injection E as <- <-. split; [lia|exact I].
  - cbn [travel] in E. rewrite handler_wire in E by auto. cbn [bind] in E.
    destruct (d =? own_addr n) eqn:Eo.
    + destruct (64 <=? e) eqn:Ee; [|destruct (comp n e) eqn:Ec];
        injection E as <- <-; (split; [lia|]); try exact I; repeat split; auto; try lia.
    + destruct ((t + 255) mod 256 =? 0) eqn:Et.
      { injection E as <- <-. split; [lia|exact I]. }
      destruct (nhop n cube d) as [fd|]; [|injection E as <- <-; split; [lia|exact I]].
      destruct (flow_up n fd); [|injection E as <- <-; split; [lia|exact I]].
      destruct (travel i hops _) as [[k' r']|] eqn:Er; cbn [bind] in E; [|discriminate].
      injection E as <- <-.
      apply IH in Er; auto. destruct Er as [Hk Hr]. split; [|exact Hr].
      assert (((t + 255) mod 256 + 255) mod 256 = (t + 255) mod 256 - 1) as Hm.
      { pose proof (N.mod_lt (t + 255) 256 ltac:(discriminate)).
        set (x := (t + 255) mod 256) in *. clearbody x.
        replace (x + 255) with (x - 1 + 1 * 256) by lia.
        rewrite N.mod_add by discriminate. apply N.mod_small. lia. }
      rewrite Hm in Hk. lia.
Qed.
Lemma travel_defined : forall hops d q t c e pl,
  d < 256 ^ N.of_nat (addr_size i) -> e < 2 ^ 64 ->
  exists k r, travel i hops (wire (addr_size i) d q t c e ++ pl) = Some (k, r).
Proof.
  induction hops as [|[n cube] hops IH]; intros d q t c e pl Hd He; cbn [travel].
  - eauto.
  - rewrite handler_wire by auto. cbn [bind].
    destruct (d =? own_addr n).
    + destruct (64 <=? e); [|destruct (comp n e)]; eauto.
    + destruct (_ =? 0); [eauto|]. destruct (nhop n cube d) as [fd|]; [|eauto].
      destruct (flow_up n fd); [|eauto].
      edestruct IH as (k & r & ->); eauto. cbn [bind]. eauto.
Qed.

(** Marks are kept. *)
Lemma marks_kept_trans : forall a b c, marks_kept a b -> marks_kept b c -> marks_kept a c.
Proof. unfold marks_kept; auto. Qed.
Lemma marks_mod : forall a b, a < 256 -> marks_kept a b -> marks_kept a (b mod 256).
Proof.
  intros a b Ha H k Hk. change 256 with (2 ^ 8).
  destruct (N.lt_ge_cases k 8) as [L|L].
  - rewrite N.mod_pow2_bits_low; auto.
  - exfalso. destruct (N.eq_dec a 0) as [->|Hn]; [rewrite N.bits_0 in Hk; discriminate|].
    rewrite N.bits_above_log2 in Hk; [discriminate|].
    assert (N.log2 a < 8) by (apply N.log2_lt_pow2; [lia|exact Ha]). lia.
Qed.
Lemma travel_marks : forall hops d q t c e pl k n e' c' pl',
  d < 256 ^ N.of_nat (addr_size i) -> e < 2 ^ 64 -> c < 256 ->
  Forall (fun h => forall fd x, x < 256 -> marks_kept x (calc_ecn (fst h) fd x)) hops ->
  travel i hops (wire (addr_size i) d q t c e ++ pl) = Some (k, Some (n, ToFlow e' c' pl')) ->
  marks_kept c c'.
Proof.
  induction hops as [|[n cube] hops IH]; intros d q t c e pl k n' e' c' pl' Hd He Hc Hf E.
  - discriminate.
  - cbn [travel] in E. rewrite handler_wire in E by auto. cbn [bind] in E.
    inversion Hf as [|? ? Hn Hf']; subst. cbn [fst] in Hn.
    destruct (d =? own_addr n) eqn:Eo.
    + destruct (64 <=? e) eqn:Ee; [|destruct (comp n e)]; try discriminate.
      injection E as ? ? ? ? ?; subst. intros z Hz; exact Hz.
    + destruct ((t + 255) mod 256 =? 0); [discriminate|].
      destruct (nhop n cube d) as [fd|]; [|discriminate].
      destruct (flow_up n fd); [|discriminate].
      destruct (travel i hops _) as [[k' r']|] eqn:Er; cbn [bind] in E; [|discriminate].
      injection E as <- ->.
      eapply marks_kept_trans.
      * apply marks_mod; [exact Hc|]. apply (Hn fd c Hc).
      * eapply IH; [exact Hd|exact He| |exact Hf'|exact Er]. apply N.mod_lt. discriminate.
Qed.
End WithInfo.

Lemma mb_ecn_marks : forall queued fd x, marks_kept x (mb_ecn_calc_ecn queued fd x).
Proof.
  intros queued fd x k Hk. unfold mb_ecn_calc_ecn. rewrite N.lor_spec, Hk. reflexivity.
Qed.
