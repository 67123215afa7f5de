(* C19: the header of a packet on a flow with retransmission or ordering is
   read back by the receiver as the sender meant it. *)
From Coq Require Import NArith ZArith List Bool Lia ZifyBool ZifyNat ZifyN.
From Verif Require Import Bytes SeqNoModel FrctModel FrctWireModel FrctRun FrctProps2.
Import ListNotations.
Open Scope N_scope.
Ltac Zify.zify_post_hook ::= Z.div_mod_to_equations.

(* Four bytes, most significant first. *)
Definition word (v : N) : list N := [v / 2 ^ 24 mod 256; v / 2 ^ 16 mod 256; v / 2 ^ 8 mod 256; v mod 256].

Lemma be_word : forall v, be 4 v = word v.
Proof.
  intros. unfold be, word. cbn [le rev app]. rewrite !N.div_div by discriminate. reflexivity.
Qed.

Lemma word_value : forall v, v < 2 ^ 32 -> unbe (word v) = v.
Proof. intros v H. rewrite <- be_word. apply unbe_be. exact H. Qed.

Lemma low24 : forall v, N.land v 0x00FFFFFF = v mod 2 ^ 24.
Proof. intros. change 0x00FFFFFF with (N.ones 24). apply N.land_ones. Qed.

(* The bytes of the header of a data packet: where each field is. *)
Theorem frct_header_layout : forall drf fc acks s w k,
  snd_bytes drf fc acks s w k =
    (1 + (if drf then 2 else 0) + (if acks then 4 else 0) + (if fc then 8 else 0)) ::
    (if fc then [w / 2 ^ 16 mod 256; w / 2 ^ 8 mod 256; w mod 256] else [0; 0; 0]) ++
    word s ++ (if acks then word k else [0; 0; 0; 0]).
Proof.
  intros.
  assert (W : word (N.land w 0x00FFFFFF) = [0; w / 2 ^ 16 mod 256; w / 2 ^ 8 mod 256; w mod 256]).
  { rewrite low24. unfold word. change (2 ^ 24) with 16777216. change (2 ^ 16) with 65536. change (2 ^ 8) with 256.
    f_equal; [lia|]. f_equal; [lia|]. f_equal; [lia|]. f_equal; lia. }
  unfold snd_bytes, put_field, put, or_flag. rewrite !be_word.
  replace (word (N.land w 0x00FFFFFF)) with [0; w / 2 ^ 16 mod 256; w / 2 ^ 8 mod 256; w mod 256] by (symmetry; exact W).
  unfold word. generalize (w / 2 ^ 16 mod 256) (w / 2 ^ 8 mod 256) (w mod 256)
    (s / 2 ^ 24 mod 256) (s / 2 ^ 16 mod 256) (s / 2 ^ 8 mod 256) (s mod 256)
    (k / 2 ^ 24 mod 256) (k / 2 ^ 16 mod 256) (k / 2 ^ 8 mod 256) (k mod 256).
  intros. destruct drf, fc, acks; reflexivity.
Qed.

(* C19 for data packets: whatever the fields, and whatever follows the
   header, the receiver reads back the same fields. *)
Theorem frct_header_data : forall drf fc acks s w k rest,
  s < 2 ^ 32 -> w < 2 ^ 32 -> k < 2 ^ 32 ->
  rcv_bytes (snd_bytes drf fc acks s w k ++ rest) =
    Some (Pci true drf acks fc false
            (if fc then Z.of_N w mod 2 ^ 24 else 0) (Z.of_N s) (if acks then Z.of_N k else 0))%Z.
Proof.
  intros drf fc acks s w k rest Hs Hw Hk. rewrite frct_header_layout.
  pose proof (word_value s Hs) as Vs. pose proof (word_value k Hk) as Vk. unfold word in *.
  assert (Vw : unbe [0; w / 2 ^ 16 mod 256; w / 2 ^ 8 mod 256; w mod 256] = w mod 2 ^ 24).
  { unfold unbe. cbn [rev app unle]. change (2 ^ 24) with 16777216. change (2 ^ 16) with 65536. change (2 ^ 8) with 256. lia. }
  assert (Zw : Z.of_N (w mod 2 ^ 24) = (Z.of_N w mod 2 ^ 24)%Z) by (rewrite N2Z.inj_mod; reflexivity).
  revert Vs Vk Vw.
  generalize (w / 2 ^ 16 mod 256) (w / 2 ^ 8 mod 256) (w mod 256)
    (s / 2 ^ 24 mod 256) (s / 2 ^ 16 mod 256) (s / 2 ^ 8 mod 256) (s mod 256)
    (k / 2 ^ 24 mod 256) (k / 2 ^ 16 mod 256) (k / 2 ^ 8 mod 256) (k mod 256).
  intros w2 w1 w0 s3 s2 s1 s0 k3 k2 k1 k0 Vs Vk Vw.
  assert (R : forall fl x2 x1 x0 y3 y2 y1 y0,
    rcv_bytes ((fl :: [x2; x1; x0] ++ [s3; s2; s1; s0] ++ [y3; y2; y1; y0]) ++ rest) =
    Some (Pci (has fl 1) (has fl 2) (has fl 4) (has fl 8) (has fl 16)
            (Z.of_N (unbe [0; x2; x1; x0])) (Z.of_N (unbe [s3; s2; s1; s0])) (Z.of_N (unbe [y3; y2; y1; y0]))))
    by reflexivity.
  destruct drf, fc, acks; rewrite R, Vs, ?Vk, ?Vw, ?Zw; reflexivity.
Qed.

(* C19 for control packets. *)
Theorem frct_header_ctrl : forall (ack fc rdvs : bool) k w rest,
  w < 2 ^ 32 -> k < 2 ^ 32 ->
  rcv_bytes (ctrl_bytes ((if ack then 4 else 0) + (if fc then 8 else 0) + (if rdvs then 16 else 0)) k w ++ rest) =
    Some (ctrl ack fc rdvs (Z.of_N k) (Z.of_N w)).
Proof.
  intros ack fc rdvs k w rest Hw Hk. unfold ctrl_bytes, put_field, put. rewrite !be_word.
  pose proof (word_value k Hk) as Vk. unfold word in *.
  assert (Vw : unbe [0; w / 2 ^ 16 mod 256; w / 2 ^ 8 mod 256; w mod 256] = w mod 2 ^ 24).
  { unfold unbe. cbn [rev app unle]. change (2 ^ 24) with 16777216. change (2 ^ 16) with 65536. change (2 ^ 8) with 256. lia. }
  assert (Zw : Z.of_N (w mod 2 ^ 24) = (Z.of_N w mod 2 ^ 24)%Z) by (rewrite N2Z.inj_mod; reflexivity).
  revert Vk Vw.
  generalize (w / 2 ^ 24 mod 256) (w / 2 ^ 16 mod 256) (w / 2 ^ 8 mod 256) (w mod 256)
    (k / 2 ^ 24 mod 256) (k / 2 ^ 16 mod 256) (k / 2 ^ 8 mod 256) (k mod 256).
  intros w3 w2 w1 w0 k3 k2 k1 k0 Vk Vw.
  match goal with |- rcv_bytes ?l = _ =>
    change l with ([(if ack then 4 else 0) + (if fc then 8 else 0) + (if rdvs then 16 else 0); w2; w1; w0;
                    0; 0; 0; 0; k3; k2; k1; k0] ++ rest) end.
  assert (R : forall fl : N, rcv_bytes ([fl; w2; w1; w0; 0; 0; 0; 0; k3; k2; k1; k0] ++ rest) =
    Some (Pci (has fl 1) (has fl 2) (has fl 4) (has fl 8) (has fl 16)
            (Z.of_N (unbe [0; w2; w1; w0])) 0 (Z.of_N (unbe [k3; k2; k1; k0])))) by reflexivity.
  rewrite R, Vk, Vw, Zw. destruct ack, fc, rdvs; reflexivity.
Qed.

(* A retransmission changes the acknowledgement number and nothing else. *)
Theorem frct_header_rxm : forall buf k p,
  k < 2 ^ 32 -> rcv_bytes buf = Some p -> rcv_bytes (rxm_bytes buf k) = Some (set_ackno p (Z.of_N k)).
Proof.
  intros buf k p Hk H.
  do 12 (destruct buf as [|? buf]; [discriminate H|]).
  unfold rxm_bytes, put_field, put. rewrite be_word. pose proof (word_value k Hk) as Vk. unfold word in *.
  revert Vk. generalize (k / 2 ^ 24 mod 256) (k / 2 ^ 16 mod 256) (k / 2 ^ 8 mod 256) (k mod 256).
  intros k3 k2 k1 k0 Vk.
  match goal with |- context [Nat.leb ?x ?y] => change (Nat.leb x y) with true end.
  cbv iota. match goal with |- rcv_bytes ?l = _ =>
    change l with ([n; n0; n1; n2; n3; n4; n5; n6; k3; k2; k1; k0] ++ buf) end.
  assert (R : forall x3 x2 x1 x0 : N, rcv_bytes ([n; n0; n1; n2; n3; n4; n5; n6; x3; x2; x1; x0] ++ buf) =
    Some (Pci (has n 1) (has n 2) (has n 4) (has n 8) (has n 16)
            (Z.of_N (unbe [0; n0; n1; n2])) (Z.of_N (unbe [n3; n4; n5; n6])) (Z.of_N (unbe [x3; x2; x1; x0]))))
    by reflexivity.
  rewrite R, Vk. change (n :: n0 :: n1 :: n2 :: n3 :: n4 :: n5 :: n6 :: n7 :: n8 :: n9 :: n10 :: buf)
    with ([n; n0; n1; n2; n3; n4; n5; n6; n7; n8; n9; n10] ++ buf) in H.
  rewrite R in H. injection H as <-. reflexivity.
Qed.

(* So the header that the model of the protocol hands from one end to the
   other is the one that crosses the wire. *)
Theorem frct_header_model : forall f now rnd f' h rest,
  (0 <= seqno (snd_cr f) < two32)%Z -> (0 <= rwe (rcv_cr f) < two32)%Z -> (0 <= lwe (rcv_cr f) < two32)%Z ->
  frcti_snd f now rnd = Ok (f', h) ->
  rcv_bytes (snd_bytes (p_drf h) (p_fc h) (p_ack h) (Z.to_N (p_seqno h)) (Z.to_N (rwe (rcv_cr f)))
               (Z.to_N (lwe (rcv_cr f))) ++ rest) = Some h.
Proof.
  intros f now rnd f' h rest H1 H2 H3 E.
  assert (Hh : (exists drf fc acks s, h = Pci true drf acks fc false (if fc then rwe (rcv_cr f) mod 2 ^ 24 else 0) s
                 (if acks then lwe (rcv_cr f) else 0) /\ (0 <= s < two32))%Z).
  { unfold frcti_snd in E. destruct (snd_inactive f now && _); [discriminate|]. cbv zeta in E.
    injection E as _ <-. do 4 eexists. split; [reflexivity|].
    destruct (snd_inactive f now); [|exact H1]. apply Z.mod_pos_bound. reflexivity. }
  destruct Hh as (drf & fc & acks & s & -> & Hs). cbn [p_drf p_fc p_ack p_seqno].
  unfold two32 in *. change (2 ^ 32)%Z with 4294967296%Z in *.
  rewrite frct_header_data by (change (2 ^ 32) with 4294967296; lia).
  rewrite !Z2N.id by lia. reflexivity.
Qed.

Example frct_header_example :
  snd_bytes true true true 0xFFFFFFFE 0xABCDEF01 7 = [15; 0xCD; 0xEF; 1; 255; 255; 255; 254; 0; 0; 0; 7] /\
  rcv_bytes (snd_bytes true true true 0xFFFFFFFE 0xABCDEF01 7 ++ [1; 2; 3]) =
    Some (Pci true true true true false 0xCDEF01 0xFFFFFFFE 7)%Z /\
  match frcti_snd (frcti_create 10 120 60 true (ts 1000)) (ts 1002) 77 with
  | Ok (_, h) => rcv_bytes (snd_bytes (p_drf h) (p_fc h) (p_ack h) (Z.to_N (p_seqno h)) 0 0) = Some h
  | UB => False
  end.
Proof. vm_compute. repeat split. Qed.

Print Assumptions frct_header_layout.
Print Assumptions frct_header_data.
Print Assumptions frct_header_ctrl.
Print Assumptions frct_header_rxm.
Print Assumptions frct_header_model.
