(** Unpacking undoes packing. *)
From Coq Require Import NArith ZArith List Bool Lia ZifyBool ZifyNat ZifyN.
From Verif Require Import WireModel.
Import ListNotations.
Local Open Scope N_scope.
Ltac Zify.zify_post_hook ::= Z.div_mod_to_equations.

Definition byte (b : N) : Prop := b < 256.
Definition bytes (l : list N) : Prop := Forall byte l.
Definition sbyte (b : N) : Prop := 0 < b < 256.

Lemma varint_get : forall m f n r, n < 2 ^ (7 * N.of_nat (S f)) -> (f < m)%nat ->
  get_varint m (varint f n ++ r) = Some (n, r).
Proof.
  intros m f; revert m. induction f as [|f IH]; intros m n r H Hm.
  - change (2 ^ (7 * N.of_nat 1)) with 128 in H. destruct m as [|m]; [lia|].
    cbn [varint app get_varint]. rewrite N.mod_small by lia.
    destruct (N.ltb_spec n 128); [reflexivity|lia].
  - destruct m as [|m]; [lia|]. cbn [varint].
    destruct (N.ltb_spec n 128) as [E|E].
    + cbn [app get_varint]. destruct (N.ltb_spec n 128); [reflexivity|lia].
    + cbn [app get_varint].
      destruct (N.ltb_spec (n mod 128 + 128) 128); [lia|].
      rewrite IH; [|clear -H|lia].
      * f_equal. f_equal. pose proof (N.div_mod n 128). lia.
      * apply N.div_lt_upper_bound; [lia|].
        replace (7 * N.of_nat (S (S f))) with (7 + 7 * N.of_nat (S f)) in H by lia.
        rewrite N.pow_add_r in H. exact H.
Qed.

Lemma varint_fuel : forall f g n, (f <= g)%nat -> n < 2 ^ (7 * N.of_nat (S f)) ->
  varint g n = varint f n.
Proof.
  induction f as [|f IH]; intros g n Hg H.
  - change (2 ^ (7 * N.of_nat 1)) with 128 in H. destruct g; cbn [varint]; [reflexivity|].
    destruct (N.ltb_spec n 128); [|lia]. rewrite N.mod_small by lia. reflexivity.
  - destruct g as [|g]; [lia|]. cbn [varint]. destruct (n <? 128); [reflexivity|].
    f_equal. apply IH; [lia|]. apply N.div_lt_upper_bound; [lia|].
    replace (7 * N.of_nat (S (S f))) with (7 + 7 * N.of_nat (S f)) in H by lia.
    rewrite N.pow_add_r in H. exact H.
Qed.

Lemma put_get10 : forall n r, n < 2 ^ 64 -> get_varint 10 (put_varint n ++ r) = Some (n, r).
Proof.
  intros n r H. apply varint_get; [|lia].
  eapply N.lt_trans; [exact H|]. reflexivity.
Qed.

Lemma put_get5 : forall n r, n < 2 ^ 32 -> get_varint 5 (put_varint n ++ r) = Some (n, r).
Proof.
  intros n r H. unfold put_varint.
  assert (n < 2 ^ (7 * N.of_nat (S 4))) by (eapply N.lt_trans; [exact H|]; reflexivity).
  rewrite (varint_fuel 4 9) by (assumption || lia).
  apply varint_get; [assumption|lia].
Qed.

Lemma varint_bytes : forall f n, bytes (varint f n).
Proof.
  induction f; intros n; cbn [varint].
  - constructor; [unfold byte; lia|constructor].
  - destruct (N.ltb_spec n 128); constructor; try constructor; try (unfold byte; lia).
    apply IHf.
Qed.

Lemma varint_len : forall f n, (1 <= length (varint f n) <= S f)%nat.
Proof.
  induction f; intros n; cbn [varint]; [cbn; lia|].
  destruct (n <? 128); cbn [length]; [lia|]. specialize (IHf (n / 128)). lia.
Qed.

Lemma put_len : forall k n, n < 2 ^ (7 * N.of_nat (S k)) -> (k <= 9)%nat ->
  (1 <= length (put_varint n) <= S k)%nat.
Proof.
  intros k n H Hk. unfold put_varint. rewrite (varint_fuel k 9) by assumption. apply varint_len.
Qed.

Lemma put_len10 : forall n, (1 <= length (put_varint n) <= 10)%nat.
Proof. intros. apply varint_len. Qed.

Lemma take_app : forall l r, take (N.of_nat (length l)) (l ++ r) = Some (l, r).
Proof.
  intros. unfold take. rewrite app_length.
  destruct (N.leb_spec (N.of_nat (length l)) (N.of_nat (length l + length r))); [|lia].
  rewrite Nnat.Nat2N.id, firstn_app, skipn_app, Nat.sub_diag, firstn_all, skipn_all.
  cbn. rewrite app_nil_r. reflexivity.
Qed.

(** The fields the code writes. *)
Definition ok_field (f : field) : Prop :=
  fst f < 2 ^ 28 /\
  match snd f with
  | WVar n => n < 2 ^ 64
  | WLen l => N.of_nat (length l) <= INT_MAX
  | W64 l => length l = 8%nat
  | W32 l => length l = 4%nat
  end.

Lemma get_put_field : forall f r, ok_field f -> get_field (put_field f ++ r) = Some (f, r).
Proof.
  intros [t v] r [Ht Hv]. cbn [fst snd] in Ht, Hv.
  change (2 ^ 28) with 268435456 in Ht. assert (P : 2 ^ 32 = 4294967296) by reflexivity.
  unfold get_field. destruct v as [n|l|l|l]; cbn [put_field]; rewrite <- !app_assoc;
    rewrite put_get5 by lia.
  - replace (8 * t / 8) with t by lia. replace (8 * t mod 8) with 0 by lia.
    rewrite put_get10 by assumption. reflexivity.
  - replace ((8 * t + 1) / 8) with t by lia. replace ((8 * t + 1) mod 8) with 1 by lia.
    change 8 with (N.of_nat 8). rewrite <- Hv, take_app. reflexivity.
  - replace ((8 * t + 2) / 8) with t by lia. replace ((8 * t + 2) mod 8) with 2 by lia.
    unfold INT_MAX in Hv. rewrite put_get5 by lia.
    destruct (N.ltb_spec INT_MAX (N.of_nat (length l))); [unfold INT_MAX in *; lia|].
    rewrite take_app. reflexivity.
  - replace ((8 * t + 5) / 8) with t by lia. replace ((8 * t + 5) mod 8) with 5 by lia.
    change 4 with (N.of_nat 4). rewrite <- Hv, take_app. reflexivity.
Qed.

Lemma put_field_len : forall f, (1 <= length (put_field f))%nat.
Proof.
  intros [t [n|l|l|l]]; cbn [put_field]; rewrite app_length;
    match goal with |- (1 <= length (put_varint ?a) + _)%nat => pose proof (put_len10 a) end; lia.
Qed.

Lemma get_fields_pack : forall fs fuel, Forall ok_field fs ->
  (length (pack fs) <= fuel)%nat -> get_fields fuel (pack fs) = Some fs.
Proof.
  induction fs as [|f fs IH]; intros fuel H L.
  - destruct fuel; reflexivity.
  - inversion H as [|x y Hf Hr]; subst. unfold pack in *. cbn [flat_map] in *.
    pose proof (put_field_len f) as P. rewrite app_length in L.
    destruct fuel as [|fuel]; [lia|].
    remember (put_field f ++ flat_map put_field fs) as z eqn:Ez.
    destruct z as [|b z].
    { exfalso. destruct (put_field f); cbn in *; [lia|discriminate]. }
    cbn [get_fields]. rewrite Ez, get_put_field by assumption.
    rewrite IH; [reflexivity|assumption|lia].
Qed.

(** Unpacking undoes packing. *)
Lemma unpack_pack : forall fs, Forall ok_field fs -> unpack (pack fs) = Some fs.
Proof. intros. apply get_fields_pack; [assumption|lia]. Qed.

(** The lengths add up: nothing in the fields is longer than the message. *)
Lemma get_varint_shorter : forall m l v r, get_varint m l = Some (v, r) ->
  (length r < length l)%nat.
Proof.
  induction m; intros [|b l] v r H; cbn [get_varint] in H; try discriminate.
  destruct (b <? 128).
  - inversion H; subst. cbn. lia.
  - destruct (get_varint m l) as [[v' r']|] eqn:E; [|discriminate].
    inversion H; subst. apply IHm in E. cbn. lia.
Qed.

Lemma take_len : forall n l d r, take n l = Some (d, r) -> (length d + length r = length l)%nat.
Proof.
  intros n l d r. unfold take. destruct (N.leb_spec n (N.of_nat (length l))); [|discriminate].
  intros Q; inversion Q; subst. rewrite firstn_length, skipn_length. lia.
Qed.

Definition datalen (f : field) : nat :=
  match snd f with WVar _ => 0 | W64 l => length l | WLen l => length l | W32 l => length l end.

Lemma get_field_len : forall l f r, get_field l = Some (f, r) ->
  (datalen f + length r < length l)%nat.
Proof.
  intros l f r. unfold get_field. destruct (get_varint 5 l) as [[k r0]|] eqn:E; [|discriminate].
  apply get_varint_shorter in E.
  remember (k mod 8) as m eqn:Em. clear Em.
  destruct m as [|[[p|p|]|[p|p|]|]]; try discriminate.
  - destruct (get_varint 10 r0) as [[v r']|] eqn:F; [|discriminate].
    apply get_varint_shorter in F. intros Q; inversion Q; subst. cbn. lia.
  - destruct p; try discriminate.
    destruct (take 4 r0) as [[d r']|] eqn:F; [|discriminate].
    apply take_len in F. intros Q; inversion Q; subst. cbn. lia.
  - destruct (get_varint 5 r0) as [[n r']|] eqn:F; [|discriminate].
    apply get_varint_shorter in F. destruct (INT_MAX <? n); [discriminate|].
    destruct (take n r') as [[d r'']|] eqn:G; [|discriminate].
    apply take_len in G. intros Q; inversion Q; subst. cbn. lia.
  - destruct (take 8 r0) as [[d r']|] eqn:F; [|discriminate].
    apply take_len in F. intros Q; inversion Q; subst. cbn. lia.
Qed.

Fixpoint datasum (fs : list field) : nat :=
  match fs with [] => 0 | f :: r => S (datalen f) + datasum r end.

Lemma get_fields_len : forall fuel l fs, get_fields fuel l = Some fs ->
  (datasum fs <= length l)%nat.
Proof.
  induction fuel; intros [|b l] fs H; cbn [get_fields] in H; try discriminate;
    try (inversion H; subst; cbn; lia).
  remember (b :: l) as z eqn:Ez. clear Ez.
  destruct (get_field z) as [[x r]|] eqn:E; [|discriminate].
  destruct (get_fields fuel r) as [fs'|] eqn:F; [|discriminate].
  inversion H; subst. apply get_field_len in E. apply IHfuel in F. cbn [datasum]. lia.
Qed.

Lemma unpack_len : forall l fs, unpack l = Some fs -> (datasum fs <= length l)%nat.
Proof. intros. eapply get_fields_len; eassumption. Qed.

(** A field with its tag is there. *)
Lemma len_field_in : forall t fs d, len_field t fs = Some (Some d) -> In (t, WLen d) fs.
Proof.
  induction fs as [|[t' v] fs IH]; intros d H; cbn [len_field] in H; [discriminate|].
  destruct (len_field t fs) as [r|] eqn:E; [|discriminate].
  destruct (N.eqb_spec t' t) as [E'|E'].
  - destruct v; try discriminate. subst t'. destruct r as [x|].
    + inversion H; subst. right. apply IH. reflexivity.
    + inversion H; subst. left. reflexivity.
  - inversion H; subst. right. apply IH. reflexivity.
Qed.

Lemma cstr_len : forall l, (length (cstr l) <= length l)%nat.
Proof. induction l as [|b l]; cbn [cstr]; [lia|]. destruct (b =? 0); cbn [length]; lia. Qed.

Lemma cstr_id : forall l, Forall sbyte l -> cstr l = l.
Proof.
  induction 1 as [|b l H _ IH]; cbn [cstr]; [reflexivity|].
  unfold sbyte in H. destruct (N.eqb_spec b 0); [lia|]. rewrite IH. reflexivity.
Qed.

Lemma u32_small : forall n, n < 2 ^ 32 -> u32 n = n.
Proof. intros. apply N.mod_small. assumption. Qed.
Lemma u64_small : forall n, n < 2 ^ 64 -> u64 n = n.
Proof. intros. apply N.mod_small. assumption. Qed.

Lemma sext_lt : forall z, sext z < 2 ^ 64.
Proof.
  intros. unfold sext. pose proof (Z.mod_pos_bound z (2 ^ 64) eq_refl).
  change (2 ^ 64) with (Z.to_N (2 ^ 64)). apply Z2N.inj_lt; lia.
Qed.

Lemma i64_sext : forall z, (- 2 ^ 63 <= z < 2 ^ 63)%Z -> i64 (sext z) = z.
Proof.
  intros z H. unfold i64. rewrite u64_small by apply sext_lt. unfold sext.
  assert (P : (2 ^ 64 = 18446744073709551616)%Z) by reflexivity.
  assert (P' : (2 ^ 63 = 9223372036854775808)%Z) by reflexivity.
  rewrite P, P' in *. rewrite Z2N.id by lia.
  destruct (Z.ltb_spec (z mod 18446744073709551616) 9223372036854775808); lia.
Qed.

Lemma i32_sext : forall z, (- 2 ^ 31 <= z < 2 ^ 31)%Z -> i32 (sext z) = z.
Proof.
  intros z H. unfold i32, u32, sext.
  assert (P : (2 ^ 64 = 18446744073709551616)%Z) by reflexivity.
  assert (P' : (2 ^ 31 = 2147483648)%Z) by reflexivity.
  assert (P3 : (2 ^ 32 = 4294967296)%Z) by reflexivity.
  assert (P4 : 2 ^ 32 = 4294967296) by reflexivity.
  rewrite P, P', P3, P4 in *.
  rewrite N2Z.inj_mod, Z2N.id by lia. change (Z.of_N 4294967296) with 4294967296%Z.
  match goal with |- context [(?a <? ?b)%Z] => destruct (Z.ltb_spec a b) end; lia.
Qed.
