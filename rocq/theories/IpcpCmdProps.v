(** Theorems about the commands of the IRMd to an IPCP (C101). *)
From Coq Require Import NArith ZArith List Bool Lia ZifyBool ZifyNat ZifyN.
From Verif Require Import WireModel WireProofs EnrollModel EnrollSpec EnrollProps IrmModel IrmSpec IrmProofs IrmProps IpcpCmdModel IpcpCmdSpec.
Import ListNotations.
Local Open Scope N_scope.
Local Opaque put_varint.

(** * The message survives *)
Record im_ok (m : ipcp_msg) : Prop := {
  iok_code : c_code m < 2 ^ 32;
  iok_fid : each int32 (c_fid m);
  iok_qos : each qmsg_ok (c_qos m);
  iok_conf : each conf_ok (c_conf m);
  iok_pid : each int32 (c_pid m);
  iok_layer : each layer_ok (c_layer m);
  iok_resp : each int32 (c_resp m);
  iok_timeo : each (fun n => n < 2 ^ 32) (c_timeo m);
  iok_result : each int32 (c_result m)
}.
Lemma each_sext : forall o n, option_map sext o = Some n -> n < 2 ^ 64.
Proof. intros [z|] n E; [|discriminate E]. injection E as <-. apply sext_lt. Qed.
Lemma i32_map : forall o, each int32 o -> option_map i32 (option_map sext o) = o.
Proof. intros [z|] H; [|reflexivity]. cbn [option_map]. rewrite i32_sext by (apply H; reflexivity). reflexivity. Qed.
Lemma im_nums : forall m, im_ok m -> Forall num_ok (im_fields m).
Proof.
  intros m H. unfold im_fields.
  repeat apply nums_app; try (apply nums_len; reflexivity); try (apply nums_num; [reflexivity|]); try (intros n; apply each_sext).
  - nums. apply lt3264, (iok_code m H).
  - intros n E. apply lt3264, (iok_timeo m H n E).
Qed.
Section Getters.
Variable m : ipcp_msg.
Ltac num_at := unfold im_fields; repeat rewrite num_skip by wo; apply num_here; wo.
Ltac len_at := unfold im_fields; repeat rewrite len_skip by wo; apply len_here; wo.
Ltac msg_at := intros; unfold im_fields; repeat rewrite msg_skip by wo; apply msg_here; [wo|assumption].
Lemma im1 : num_field 1 (im_fields m) = Some (Some (c_code m)).
Proof. unfold im_fields. change [(1, WVar (c_code m))] with (onum 1 (Some (c_code m))). apply num_here. wo. Qed.
Lemma im2 : len_field 2 (im_fields m) = Some (c_hash m). Proof. len_at. Qed.
Lemma im3 : num_field 3 (im_fields m) = Some (option_map sext (c_fid m)). Proof. num_at. Qed.
Lemma im4 : len_field 4 (im_fields m) = Some (c_dst m). Proof. len_at. Qed.
Lemma im5 : (forall a, c_qos m = Some a -> qos_unpack (pack (qos_fields a)) = Some a) ->
  msg_field qos_unpack later 5 (im_fields m) = Some (c_qos m). Proof. msg_at. Qed.
Lemma im6 : len_field 6 (im_fields m) = Some (c_pk m). Proof. len_at. Qed.
Lemma im7 : (forall a, c_conf m = Some a -> conf_unpack (pack (conf_fields a)) = Some a) ->
  msg_field conf_unpack conf_merge 7 (im_fields m) = Some (c_conf m). Proof. msg_at. Qed.
Lemma im8 : num_field 8 (im_fields m) = Some (option_map sext (c_pid m)). Proof. num_at. Qed.
Lemma im9 : (forall a, c_layer m = Some a -> layer_unpack (pack (layer_fields a)) = Some a) ->
  msg_field layer_unpack later 9 (im_fields m) = Some (c_layer m). Proof. msg_at. Qed.
Lemma im10 : num_field 10 (im_fields m) = Some (option_map sext (c_resp m)). Proof. num_at. Qed.
Lemma im11 : len_field 11 (im_fields m) = Some (c_comp m). Proof. len_at. Qed.
Lemma im12 : num_field 12 (im_fields m) = Some (c_timeo m). Proof. num_at. Qed.
Lemma im13 : num_field 13 (im_fields m) = Some None. Proof. apply num_none. unfold im_fields. wo. Qed.
Lemma im14 : num_field 14 (im_fields m) = Some (option_map sext (c_result m)).
Proof. unfold im_fields. repeat rewrite num_skip by wo. rewrite <- (app_nil_r (onum 14 _)). apply num_here. constructor. Qed.
End Getters.
Lemma im_rt : forall m, im_ok m -> N.of_nat (length (pack (im_fields m))) <= INT_MAX -> im_unpack (pack (im_fields m)) = Some m.
Proof.
  intros m H L. unfold im_unpack. rewrite unpack_pack by (apply ok_fields; [apply im_nums; exact H|exact L]). clear L.
  cbn [obind]. unfold num. rewrite im1. cbn [req obind]. rewrite im2. cbn [obind]. rewrite im3. cbn [obind]. rewrite im4. cbn [obind].
  rewrite im5 by (intros a E; apply qos_rt, (iok_qos m H a E)). cbn [obind]. rewrite im6. cbn [obind].
  rewrite im7 by (intros a E; apply conf_rt, (iok_conf m H a E)). cbn [obind]. rewrite im8. cbn [obind].
  rewrite im9 by (intros a E; apply layer_rt, (iok_layer m H a E)). cbn [obind]. rewrite im10. cbn [obind]. rewrite im11. cbn [obind].
  rewrite im12. cbn [obind]. rewrite im13. cbn [obind]. rewrite im14. cbn [obind].
  rewrite (i32_map _ (iok_fid m H)), (i32_map _ (iok_pid m H)), (i32_map _ (iok_resp m H)), (i32_map _ (iok_result m H)), u32_small by apply (iok_code m H).
  assert (O : option_map u32 (c_timeo m) = c_timeo m).
  { pose proof (iok_timeo m H) as O. destruct (c_timeo m) as [n|]; [|reflexivity]. cbn [option_map]. rewrite u32_small by (apply O; reflexivity). reflexivity. }
  rewrite O. destruct m; reflexivity.
Qed.

Ltac iparts := constructor; cbn [c_code c_fid c_qos c_conf c_pid c_layer c_resp c_timeo c_result m_hashed answer];
  first [reflexivity | exact (each_none _ _) | refine (each_some _ _ _ _) | idtac];
  try assumption; try apply w32_lt; try (apply good_qmsg; assumption).
Lemma request_im : forall c m, good_cmd c -> request c = Msg m -> im_ok m.
Proof.
  intros c m G R. destruct c; cbn [good_cmd request] in *;
    repeat match goal with H : _ /\ _ |- _ => destruct H end.
  - destruct c as [c|]; [|discriminate R]. destruct (conf_s_rt _ G) as (m' & E & O & _). rewrite E in R. injection R as <-. iparts.
  - destruct dst; [|discriminate R]. injection R as <-. iparts.
  - injection R as <-. iparts.
  - injection R as <-. iparts.
  - injection R as <-. iparts.
  - injection R as <-. iparts.
  - injection R as <-. iparts.
  - injection R as <-. iparts.
  - injection R as <-. iparts.
  - injection R as <-. iparts.
  - injection R as <-. iparts.
Qed.
Lemma fits_int : forall l, fits l = true -> N.of_nat (length l) <= INT_MAX.
Proof. intros l H. unfold fits in H. apply andb_prop in H. destruct H as [_ H]. apply N.ltb_lt in H. unfold SOCK_BUF_SIZE in H. unfold INT_MAX. lia. Qed.
Lemma sends_is : forall c l, good_cmd c -> sends c = Some l ->
  exists m, request c = Msg m /\ im_unpack l = Some m /\ l = pack (im_fields m) /\ fits l = true.
Proof.
  intros c l G H. unfold sends in H. destruct (request c) as [m| |] eqn:R; [|discriminate H|discriminate H].
  exists m. split; [reflexivity|]. cbv zeta in H. destruct (fits (pack (im_fields m))) eqn:F; [|discriminate H].
  injection H as <-. split; [|split; [reflexivity|exact F]]. apply im_rt; [exact (request_im _ _ G R)|apply fits_int, F].
Qed.

(** * The IPCP does what was asked *)
Lemma i32_timeo : forall t, (0 <= t < 2 ^ 31)%Z -> i32 (w32 t) = t.
Proof. intros t H. apply i32_w32. unfold int32. change (2 ^ 31)%Z with 2147483648%Z in *. lia. Qed.
Ltac is_there := match goal with
  | |- context [has ?p ?n] => destruct (has p n) eqn:?; cbn [negb]
  end.
Ltac in_state := match goal with
  | |- context [is_init (st ?p)] => destruct (st p) eqn:?; cbn [is_init negb]
  | |- context [is_oper (st ?p)] => destruct (st p) eqn:?; cbn [is_oper negb]
  end.
Lemma needs_none : forall c p, needs c = None -> forall s, needs c = Some s -> st p = s.
Proof. intros c p H s E. rewrite H in E. discriminate E. Qed.
Lemma needs_some : forall c (p : ipcp) s, needs c = Some s -> st p = s -> forall s', needs c = Some s' -> st p = s'.
Proof. intros c p s H S s' E. rewrite H in E. injection E as <-. exact S. Qed.
Definition told_layer (p : ipcp) (c : cmd) (r : Z) (y : option layer_msg) : Prop :=
  y = if (r =? 0)%Z then match layer_of p c with Some (n, h) => Some (LayerMsg n h) | None => None end else None.
Definition moved (p : ipcp) (c : cmd) (r : Z) : state :=
  match layer_of p c with Some _ => if (r =? 0)%Z then SOper else st p | None => st p end.

Lemma dispatch_runs : forall p c m, good_cmd c -> ~ is_join c -> hash_fits p c -> request c = Msg m ->
  exists a r y s, dispatch p m = Ok (Out a (answer r y) s) /\ (runs p c a r /\ told_layer p c r y) /\ s = moved p c r.
Proof.
  intros p c m G J F R. destruct c; cbn [good_cmd request is_join hash_fits hash_of] in *; try (elim J; exact I; fail).
  - destruct c as [c|]; [|discriminate R]. destruct (conf_s_rt _ G) as (m' & E & _ & B). rewrite E in R. injection R as <-.
    unfold dispatch, do_bootstrap, just, told_layer, moved. cbn [c_code c_conf layer_of]. is_there.
    + in_state; try (eexists _, _, _, _; split; [reflexivity|split; [split; [apply (WrongState _ _ SInit); [assumption|reflexivity|congruence]|first [reflexivity|destruct (found p (Some d)); reflexivity]]|first [reflexivity|symmetry; assumption|destruct (found p (Some d)); first [reflexivity|symmetry; assumption]]]]).
      rewrite B. cbn [bind]. destruct (Z.eqb_spec (op p (OBootstrap c)) 0) as [E0|E0].
      * eexists _, 0%Z, _, _. split; [rewrite E0; reflexivity|]. split; [split; [|reflexivity]|reflexivity]. rewrite <- E0.
        apply NeedsNone; [assumption|apply (needs_some _ _ SInit); [reflexivity|assumption]|reflexivity|reflexivity].
      * eexists _, _, _, _. split; [reflexivity|]. destruct (Z.eqb_spec (op p (OBootstrap c)) 0); [contradiction|].
        split; [split; [|reflexivity]|try (destruct (found p (Some d))); first [reflexivity | symmetry; assumption]].
        apply NeedsNone; [assumption|apply (needs_some _ _ SInit); [reflexivity|assumption]|reflexivity|reflexivity].
    + eexists _, _, _, _. split; [reflexivity|]. split; [split; [apply NotThere; assumption|reflexivity]|reflexivity].
  - destruct dst as [d|]; [|discriminate R]. injection R as <-. unfold dispatch, do_enroll, just, told_layer, moved. cbn [c_code c_dst layer_of].
    rewrite ostr_id by exact G. is_there.
    + in_state; try (eexists _, _, _, _; split; [reflexivity|split; [split; [apply (WrongState _ _ SInit); [assumption|reflexivity|congruence]|first [reflexivity|destruct (found p (Some d)); reflexivity]]|first [reflexivity|symmetry; assumption|destruct (found p (Some d)); first [reflexivity|symmetry; assumption]]]]).
      destruct (Z.eqb_spec (op p (OEnroll (Some d))) 0) as [E0|E0].
      * eexists _, 0%Z, _, _. split; [rewrite E0; reflexivity|]. split; [split; [|destruct (found p (Some d)); reflexivity]|destruct (found p (Some d)); reflexivity]. rewrite <- E0.
        apply NeedsNone; [assumption|apply (needs_some _ _ SInit); [reflexivity|assumption]|reflexivity|reflexivity].
      * eexists _, _, _, _. split; [reflexivity|]. destruct (Z.eqb_spec (op p (OEnroll (Some d))) 0); [contradiction|].
        split; [split; [|reflexivity]|try (destruct (found p (Some d))); first [reflexivity | symmetry; assumption]].
        apply NeedsNone; [assumption|apply (needs_some _ _ SInit); [reflexivity|assumption]|reflexivity|reflexivity].
    + eexists _, _, _, _. split; [reflexivity|]. split; [split; [apply NotThere; assumption|reflexivity]|destruct (found p (Some d)); reflexivity].
  - injection R as <-. destruct G as (P & D & K & Q). unfold dispatch, qosed, do_simple, just, told_layer, moved. cbn [c_code c_dst c_comp c_qos layer_of].
    rewrite !ostr_id, qos_back by assumption. is_there; eexists _, _, _, _; (split; [reflexivity|split; [split; [|destruct (_ =? _)%Z; reflexivity]|first [reflexivity | symmetry; assumption]]]);
      [apply NeedsNone; [assumption|apply needs_none; reflexivity|reflexivity|reflexivity]|apply NotThere; assumption].
  - injection R as <-. destruct G as (P & D & K). unfold dispatch, do_simple, just, told_layer, moved. cbn [c_code c_dst c_comp layer_of].
    rewrite !ostr_id by assumption. is_there; eexists _, _, _, _; (split; [reflexivity|split; [split; [|destruct (_ =? _)%Z; reflexivity]|first [reflexivity | symmetry; assumption]]]);
      [apply NeedsNone; [assumption|apply needs_none; reflexivity|reflexivity|reflexivity]|apply NotThere; assumption].
  - injection R as <-. unfold dispatch, m_hashed, hashed, do_simple, just, told_layer, moved. cbn [c_code c_hash dflt layer_of]. rewrite F, Nat.eqb_refl.
    is_there; eexists _, _, _, _; (split; [reflexivity|split; [split; [|destruct (_ =? _)%Z; reflexivity]|first [reflexivity | symmetry; assumption]]]);
      [apply NeedsNone; [assumption|apply needs_none; reflexivity|reflexivity|reflexivity]|apply NotThere; assumption].
  - injection R as <-. unfold dispatch, m_hashed, hashed, do_simple, just, told_layer, moved. cbn [c_code c_hash dflt layer_of]. rewrite F, Nat.eqb_refl.
    is_there; eexists _, _, _, _; (split; [reflexivity|split; [split; [|destruct (_ =? _)%Z; reflexivity]|first [reflexivity | symmetry; assumption]]]);
      [apply NeedsNone; [assumption|apply needs_none; reflexivity|reflexivity|reflexivity]|apply NotThere; assumption].
  - injection R as <-. unfold dispatch, m_hashed, hashed, do_query, just, told_layer, moved. cbn [c_code c_hash dflt layer_of]. rewrite F, Nat.eqb_refl.
    is_there; [in_state|]; eexists _, _, _, _; (split; [reflexivity|split; [split; [|destruct (_ =? _)%Z; reflexivity]|first [reflexivity | symmetry; assumption]]]);
      first [apply NotThere; assumption | apply (WrongState _ _ SOper); [assumption|reflexivity|congruence]
            | apply NeedsNone; [assumption|apply (needs_some _ _ SOper); [reflexivity|assumption]|reflexivity|reflexivity]].
  - injection R as <-. destruct G as (A & B & Q). unfold dispatch, hashed, qosed, do_flow_alloc, just, told_layer, moved.
    cbn [c_code c_hash c_qos c_pid c_fid c_pk dflt oz layer_of]. rewrite F, Nat.eqb_refl, qos_back by assumption.
    is_there; [in_state|]; [| |destruct (Z.ltb_spec (np1 p (NAlloc (n_pid f) (fid f))) 0)| |];
      eexists _, _, _, _; (split; [reflexivity|split; [split; [|destruct (_ =? _)%Z; reflexivity]|first [reflexivity | symmetry; assumption]]]);
      first [apply NotThere; assumption | apply (WrongState _ _ SOper); [assumption|reflexivity|congruence]
            | eapply NoFd; [assumption|apply (needs_some _ _ SOper); [reflexivity|assumption]|reflexivity|assumption]
            | eapply WithFd; [assumption|apply (needs_some _ _ SOper); [reflexivity|assumption]|reflexivity|assumption|reflexivity]].
  - injection R as <-. destruct G as (A & B & Q). unfold dispatch, do_flow_alloc_resp, just, told_layer, moved.
    cbn [c_code c_resp c_fid c_pk dflt oz layer_of].
    is_there; [in_state|]; [| |destruct (Z.eqb_spec response 0); [subst response; destruct (Z.ltb_spec (np1 p (NResp (fid f))) 0)|]| |];
      eexists _, _, _, _; (split; [reflexivity|split; [split; [|destruct (_ =? _)%Z; reflexivity]|first [reflexivity | symmetry; assumption]]]);
      first [apply NotThere; assumption | apply (WrongState _ _ SOper); [assumption|reflexivity|congruence]
            | eapply NoFd; [assumption|apply (needs_some _ _ SOper); [reflexivity|assumption]|reflexivity|assumption]
            | eapply WithFd; [assumption|apply (needs_some _ _ SOper); [reflexivity|assumption]|reflexivity|assumption|reflexivity]
            | apply NeedsNone; [assumption|apply (needs_some _ _ SOper); [reflexivity|assumption]|destruct response; [contradiction|reflexivity|reflexivity]|reflexivity]].
  - injection R as <-. destruct G as (A & B). unfold dispatch, do_flow_dealloc, just, told_layer, moved.
    cbn [c_code c_fid c_timeo dflt oz layer_of]. rewrite i32_timeo by exact B.
    is_there; [in_state|]; [| |destruct (Z.ltb_spec (np1 p (NDealloc id timeo)) 0)| |];
      eexists _, _, _, _; (split; [reflexivity|split; [split; [|destruct (_ =? _)%Z; reflexivity]|first [reflexivity | symmetry; assumption]]]);
      first [apply NotThere; assumption | apply (WrongState _ _ SOper); [assumption|reflexivity|congruence]
            | eapply NoFd; [assumption|apply (needs_some _ _ SOper); [reflexivity|assumption]|reflexivity|assumption]
            | eapply WithFd; [assumption|apply (needs_some _ _ SOper); [reflexivity|assumption]|reflexivity|assumption|reflexivity]].
Qed.

(** Every command but flow_join: the IPCP does exactly what was asked, or
    says why not, and the IRMd hears the result. *)
Lemma op_int : forall p c a r, good_ipcp p -> runs p c a r -> int32 r.
Proof.
  intros p c a r [G _] R. destruct R; try apply G; try (unfold int32; lia).
  destruct c; cbn [descriptor] in *; try discriminate;
    repeat match goal with H : context [match ?z with 0%Z => _ | _ => _ end] |- _ => destruct z end; try discriminate;
    match goal with H : Some _ = Some _ |- _ => injection H as <- <- end; unfold int32; lia.
Qed.
Lemma good_layer : forall p c n h, good_ipcp p -> good_cmd c -> layer_of p c = Some (n, h) -> name255 n /\ h < 2 ^ 32.
Proof.
  intros p c n h [_ P] G E. destruct c; cbn [layer_of good_cmd] in *; try discriminate E.
  - destruct c as [c|]; [|discriminate E]. injection E as <- <-. destruct G as (A & B & _). split; assumption.
  - injection E as E. pose proof (P dst) as [A B]. rewrite E in A, B. split; assumption.
Qed.
Lemma len_sum : forall a b, length (pack (a ++ b)) = (length (pack a) + length (pack b))%nat.
Proof. intros. rewrite pack_app. apply app_length. Qed.
Lemma answer_size : forall r y, each layer_ok y -> (0 < length (pack (im_fields (answer r y))) <= 500)%nat.
Proof.
  intros r y Y. unfold im_fields, answer. cbn [c_code c_hash c_fid c_dst c_qos c_pk c_conf c_pid c_layer c_resp c_comp c_timeo c_result option_map].
  rewrite !len_sum.
  assert (A : (length (pack [(1%N, WVar 12)]) <= 20)%nat) by (change [(1, WVar 12)] with (onum 1 (Some 12)); exact (len_onum 1 (Some 12))).
  assert (A0 : (0 < length (pack [(1%N, WVar 12)]))%nat) by (vm_compute; lia).
  pose proof (len_onum 14 (Some (sext r))) as B. cbv beta iota in B.
  pose proof (len_olen 9 (option_map (fun x => pack (layer_fields x)) y)) as C.
  assert (D : (length (pack (olen 9 (option_map (fun x => pack (layer_fields x)) y))) <= 400)%nat).
  { destruct y as [y|]; cbn [option_map] in *; [|cbn; lia]. destruct (Y y eq_refl) as [L _]. pose proof (layer_len y L). lia. }
  repeat match goal with
  | |- context [length (pack (olen ?t None))] => change (length (pack (olen t None))) with 0%nat
  | |- context [length (pack (onum ?t None))] => change (length (pack (onum t None))) with 0%nat
  end.
  clear C Y. generalize dependent (length (pack (olen 9 (option_map (fun x => pack (layer_fields x)) y)))).
  generalize dependent (length (pack (onum 14 (Some (sext r))))). generalize dependent (length (pack [(1%N, WVar 12)])). intros. lia.
Qed.
Lemma receive_short : forall l, (length l <= 500)%nat -> receive l = l.
Proof. intros l H. unfold receive. apply firstn_all2. unfold SOCK_BUF_SIZE. lia. Qed.
Theorem ipcp_cmd_done_partial : forall p c l, good_ipcp p -> good_cmd c -> ~ is_join c -> hash_fits p c -> sends c = Some l ->
  exists o r, serve p l = Ok o /\ runs p c (acts o) r /\ call c (Read (respond o)) = heard p c r /\
    next o = match layer_of p c with Some _ => if (r =? 0)%Z then SOper else st p | None => st p end.
Proof.
  intros p c l P G J F S. destruct (sends_is _ _ G S) as (m & R & U & EL & FT). destruct (dispatch_runs p c m G J F R) as (a & r & y & s & D & (W & Y) & ->).
  exists (Out a (answer r y) (moved p c r)), r. unfold serve. rewrite U. split; [exact D|]. split; [exact W|]. split; [|reflexivity].
  unfold call. rewrite R. cbv zeta. rewrite <- EL, FT. unfold came_back, respond. cbn [reply].
  assert (OK : each layer_ok y).
  { unfold told_layer in Y. intros z Ez. rewrite Ez in Y. destruct (r =? 0)%Z; [|discriminate Y]. destruct (layer_of p c) as [[n h]|] eqn:EY; [|discriminate Y].
    injection Y as ->. destruct (good_layer _ _ _ _ P G EY) as [[A B] C]. split; [exact B|exact C]. }
  pose proof (answer_size r y OK) as [S0 S1].
  assert (RT : im_unpack (pack (im_fields (answer r y))) = Some (answer r y)).
  { apply im_rt; [|unfold INT_MAX; lia]. constructor; cbn [c_code c_fid c_qos c_conf c_pid c_layer c_resp c_timeo c_result answer];
      first [reflexivity | exact (each_none _ _) | exact OK | refine (each_some _ _ _ _); exact (op_int _ _ _ _ P W)]. }
  rewrite receive_short by exact S1. destruct (pack (im_fields (answer r y))) as [|b t] eqn:EP; [cbn in S0; lia|]. rewrite RT.
  unfold finish, heard. cbn [c_result c_layer answer]. unfold told_layer in Y. destruct (layer_of p c) as [[n h]|] eqn:EY.
  - destruct (good_layer _ _ _ _ P G EY) as [[A B] C].
    assert (K : match c with Bootstrap _ | Enroll _ => True | _ => False end) by (destruct c; try discriminate EY; exact I).
    destruct (Z.eqb_spec r 0) as [Er|Er].
    + subst y. destruct c; try (elim K; fail); cbn [negb ml_name ml_hash]; rewrite cstr_id by exact A;
        destruct (Nat.leb_spec (length n) 255); try lia; reflexivity.
    + destruct c; try (elim K; fail); reflexivity.
  - destruct c; try reflexivity; cbn [layer_of] in EY.
    + destruct c; [discriminate EY|]. cbn in R. discriminate R.
    + discriminate EY.
Qed.

Print Assumptions ipcp_cmd_done_partial.

(** flow_join: the IPCP does not survive it. *)
Theorem ipcp_cmd_join_breaks : forall p f d l, good_cmd (Join f d) -> sends (Join f d) = Some l -> serve p l = UB.
Proof.
  intros p f d l G S. destruct (sends_is _ _ G S) as (m & R & U & _). unfold serve. rewrite U. cbn [request] in R. injection R as <-.
  unfold dispatch, hashed, qosed. cbn [c_code c_qos]. destruct (Nat.eqb _ _); reflexivity.
Qed.
Print Assumptions ipcp_cmd_join_breaks.
Definition p0 : ipcp := Ipcp (fun _ => true) SOper 2 (fun _ => 5%Z) (fun _ => 0%Z) (fun _ => ([108], 1)).
Definition f0 : flowi := Fi 3 7 8 0 0 qos_raw.
Lemma name_l : name255 [108] /\ 1 < 2 ^ 32.
Proof. split; [split; [constructor; [lia|constructor]|cbn; lia]|reflexivity]. Qed.
Lemma p0_good : good_ipcp p0.
Proof. split; [intros; cbn; unfold int32; lia|]. intros d. exact name_l. Qed.
Lemma raw_good : good_qos qos_raw.
Proof. unfold good_qos. cbn. repeat split; reflexivity. Qed.
Lemma f0_good : int32 (fid f0) /\ int32 (n_pid f0) /\ good_qos (fqs f0).
Proof. split; [cbn; unfold int32; lia|]. split; [cbn; unfold int32; lia|exact raw_good]. Qed.
Theorem ipcp_cmd_done_refuted :
  ~ (forall p c l, good_ipcp p -> good_cmd c -> hash_fits p c -> sends c = Some l ->
     exists o r, serve p l = Ok o /\ runs p c (acts o) r /\ call c (Read (respond o)) = heard p c r).
Proof.
  intros H. destruct (sends (Join f0 [1; 2])) as [l|] eqn:S; [|vm_compute in S; discriminate S].
  destruct (H p0 (Join f0 [1; 2]) l p0_good f0_good eq_refl S) as (o & r & E & _).
  rewrite (ipcp_cmd_join_breaks p0 _ _ _ f0_good S) in E. discriminate E.
Qed.
Print Assumptions ipcp_cmd_done_refuted.

(** A hash of another length ends it too. *)
Theorem ipcp_cmd_hash_breaks : forall p c l, good_cmd c -> ~ hash_fits p c -> sends c = Some l -> serve p l = UB.
Proof.
  intros p c l G F S. destruct (sends_is _ _ G S) as (m & R & U & _). unfold serve. rewrite U.
  destruct c; cbn [hash_fits hash_of] in F; try (elim F; exact I; fail); cbn [request] in R; injection R as <-;
    unfold dispatch, m_hashed, hashed; cbn [c_code c_hash dflt];
    match goal with |- context [Nat.eqb ?a ?b] => destruct (Nat.eqb_spec a b); [contradiction|reflexivity] end.
Qed.
Print Assumptions ipcp_cmd_hash_breaks.

Ltac nub := repeat match goal with |- (if ?b then _ else _) <> UB => destruct b end; discriminate.
Lemma simple_nub : forall p n o, do_simple p n o <> UB. Proof. intros. unfold do_simple, just. nub. Qed.
Lemma enroll_nub : forall p d, do_enroll p d <> UB. Proof. intros. unfold do_enroll, just. cbv zeta. nub. Qed.
Lemma query_nub : forall p h, do_query p h <> UB. Proof. intros. unfold do_query, just. nub. Qed.
Lemma alloc_nub : forall p a b h q d, do_flow_alloc p a b h q d <> UB. Proof. intros. unfold do_flow_alloc, just. cbv zeta. nub. Qed.
Lemma join_nub : forall p a b h q, do_flow_join p a b h q <> UB. Proof. intros. unfold do_flow_join, just. cbv zeta. nub. Qed.
Lemma resp_nub : forall p a b d, do_flow_alloc_resp p a b d <> UB. Proof. intros. unfold do_flow_alloc_resp, just. cbv zeta. nub. Qed.
Lemma dealloc_nub : forall p a b, do_flow_dealloc p a b <> UB. Proof. intros. unfold do_flow_dealloc, just. cbv zeta. nub. Qed.
(** Exactly these messages end an IPCP. *)
Theorem ipcp_cmd_ends : forall p m, dispatch p m = UB <-> breaks p m.
Proof.
  intros p m. unfold dispatch, breaks, hashed, qosed.
  change (dflt [] (c_hash m)) with (match c_hash m with Some h => h | None => [] end).
  set (h := match c_hash m with Some h => h | None => [] end).
  assert (NU : forall x : res out, x <> UB -> (x = UB <-> False)) by (intros x X; split; [exact X|intros []]).
  assert (HS : forall x : res out, x <> UB -> ((if Nat.eqb (length h) (hlen p) then x else UB) = UB <-> length h <> hlen p)).
  { intros x X. destruct (Nat.eqb_spec (length h) (hlen p)) as [E|E]; split; intros A; try reflexivity; try contradiction; exact E. }
  assert (HQ : forall k : qos -> res out, (forall q, k q <> UB) -> ((match c_qos m with Some q => k (qos_msg_to_s q) | None => UB end) = UB <-> c_qos m = None)).
  { intros k K. destruct (c_qos m) as [q|]; split; intros A; try reflexivity; [elim (K _ A)|discriminate A]. }
  assert (HHQ : forall k : qos -> res out, (forall q, k q <> UB) ->
     ((if Nat.eqb (length h) (hlen p) then match c_qos m with Some q => k (qos_msg_to_s q) | None => UB end else UB) = UB
        <-> length h <> hlen p \/ c_qos m = None)).
  { intros k K. specialize (HQ k K). destruct (Nat.eqb_spec (length h) (hlen p)) as [E|E]; split; intros A; try reflexivity; try (left; exact E).
    - right. apply HQ, A.
    - destruct A as [A|A]; [contradiction|apply HQ, A]. }
  assert (HB : do_bootstrap p (c_conf m) = UB <-> has p 1 = true /\ st p = SInit /\ match c_conf m with None => True | Some c => long_name c \/ part_missing c end).
  { unfold do_bootstrap, just. destruct (has p 1); cbn [negb]; [|split; [discriminate|intros (A & _); discriminate A]].
    destruct (st p); cbn [is_init negb]; try (split; [discriminate|intros (_ & A & _); discriminate A]).
    destruct (c_conf m) as [c|]; [|split; [intros _; split; [reflexivity|split; [reflexivity|exact I]]|reflexivity]].
    rewrite <- conf_ub. pose proof (conf_not_err c). destruct (conf_msg_to_s c) as [x| |]; cbn [bind]; [|contradiction|].
    - destruct (_ =? _)%Z; split; try discriminate; intros (_ & _ & A); discriminate A.
    - split; [intros _; split; [reflexivity|split; reflexivity]|reflexivity]. }
  destruct (c_code m) as [|n]; [apply NU; discriminate|].
  repeat (destruct n as [n|n|]; try (apply NU; first [apply enroll_nub | apply simple_nub | apply resp_nub | apply dealloc_nub | discriminate]));
    first [exact HB | apply HS; first [apply simple_nub | apply query_nub]
          | apply (HQ (fun q => do_simple p 10 (OConnect (ostr (c_dst m)) (ostr (c_comp m)) q))); intros; apply simple_nub
          | apply (HHQ (fun q => do_flow_alloc p (oz (c_pid m)) (oz (c_fid m)) h q (dflt [] (c_pk m)))); intros; apply alloc_nub
          | apply (HHQ (fun q => do_flow_join p (oz (c_pid m)) (oz (c_fid m)) h q)); intros; apply join_nub].
Qed.
Print Assumptions ipcp_cmd_ends.

(** * Without an answer *)
Lemma request_no_result : forall c m, request c = Msg m -> c_result m = None.
Proof.
  intros c m R. destruct c; cbn [request] in R; try (injection R as <-; reflexivity).
  - destruct c as [c|]; [|discriminate R]. destruct (conf_s_to_msg c); [injection R as <-; reflexivity|discriminate R|discriminate R].
  - destruct dst; [injection R as <-; reflexivity|discriminate R].
Qed.
(** A command that could not be written is not taken for its own answer; every
    command but flow_dealloc says so when there is no answer. *)
Theorem ipcp_cmd_unanswered : forall c t, good_cmd c -> ~ no_argument c -> (forall l, t <> Read l) ->
  call c t = Ret (match c with Dealloc _ _ => 0%Z | _ => -1003%Z end).
Proof.
  intros c t G N T. unfold call. destruct (request c) as [m|e|] eqn:R.
  - cbv zeta. destruct (fits (pack (im_fields m))) eqn:F; [|destruct c; reflexivity].
    destruct t; cbn [came_back]; try (destruct c; reflexivity).
    + rewrite im_rt by (first [exact (request_im _ _ G R) | apply fits_int, F]). unfold finish. rewrite (request_no_result _ _ R). destruct c; reflexivity.
    + elim (T l). reflexivity.
  - destruct c; cbn [request] in R; try discriminate R.
    + destruct c; [destruct (conf_s_to_msg c); discriminate R|]. elim N. exact I.
    + destruct dst; [discriminate R|]. elim N. exact I.
  - destruct c; cbn [request] in R; try discriminate R.
    + destruct c as [c|]; [|discriminate R]. destruct (conf_s_rt _ G) as (m' & E & _). rewrite E in R. discriminate R.
    + destruct dst; discriminate R.
Qed.
Print Assumptions ipcp_cmd_unanswered.
Theorem ipcp_cmd_no_argument : forall c t, no_argument c -> call c t = Ret (-22) /\ sends c = None.
Proof. intros c t H. destruct c; try (elim H; fail); [destruct c|destruct dst]; try (elim H; fail); split; reflexivity. Qed.
Print Assumptions ipcp_cmd_no_argument.

(** Success means that the IPCP answered 0, for every command but flow_dealloc ... *)
Theorem ipcp_cmd_success_partial : forall c t, good_cmd c -> ~ is_dealloc c -> success (call c t) ->
  exists l m, t = Read l /\ im_unpack (receive l) = Some m /\ c_result m = Some 0%Z.
Proof.
  intros c t G D S. destruct t as [| | |l].
  1-3: (assert (A : no_argument c \/ ~ no_argument c) by (destruct c; cbn [no_argument]; try (right; intros []; fail); [destruct c|destruct dst]; try (right; intros []; fail); left; exact I);
        destruct A as [A|A]; [rewrite (proj1 (ipcp_cmd_no_argument c _ A)) in S|rewrite (ipcp_cmd_unanswered c _ G A) in S by (intros l; discriminate)];
        destruct S as [S|(n & h & S)]; try discriminate S; destruct c; try discriminate S; elim D; exact I).
  unfold call in S. destruct (request c) as [m|e|] eqn:R.
  - cbv zeta in S.
    assert (NO : ~ success (finish c None)).
    { intros [X|(n & h & X)]; destruct c; try discriminate X. elim D. exact I. }
    destruct (fits (pack (im_fields m))); [|contradiction]. cbn [came_back] in S. destruct (receive l) as [|b r] eqn:E; [contradiction|].
    destruct (im_unpack (b :: r)) as [x|] eqn:U; [|contradiction]. exists l, x. split; [reflexivity|]. split; [rewrite E; exact U|].
    unfold finish in S. destruct (c_result x) as [z|]; [|destruct S as [S|(n & h & S)]; destruct c; try discriminate S; elim D; exact I].
    f_equal. destruct c; try (destruct S as [S|(n & h & S)]; [injection S as S; exact S|discriminate S]).
    + destruct (Z.eqb_spec z 0) as [X|X]; [exact X|]. destruct S as [S|(n & h & S)]; [injection S as S; contradiction|discriminate S].
    + destruct (Z.eqb_spec z 0) as [X|X]; [exact X|]. destruct S as [S|(n & h & S)]; [injection S as S; contradiction|discriminate S].
  - destruct c; cbn [request] in R; try discriminate R.
    + destruct c; [destruct (conf_s_to_msg c); discriminate R|]. injection R as <-. destruct S as [S|(n & h & S)]; discriminate S.
    + destruct dst; [discriminate R|]. injection R as <-. destruct S as [S|(n & h & S)]; discriminate S.
  - destruct S as [S|(n & h & S)]; discriminate S.
Qed.
Print Assumptions ipcp_cmd_success_partial.
(** ... which is a success even for an IPCP that is gone. *)
Theorem ipcp_cmd_success_refuted :
  ~ (forall c t, good_cmd c -> success (call c t) -> exists l m, t = Read l /\ im_unpack (receive l) = Some m /\ c_result m = Some 0%Z).
Proof.
  intros H. destruct (H (Dealloc 3 120) Gone) as (l & m & E & _); [split; [unfold int32; lia|change (2 ^ 31)%Z with 2147483648%Z; lia]|left; vm_compute; reflexivity|].
  discriminate E.
Qed.
Print Assumptions ipcp_cmd_success_refuted.

(** Whatever comes back, the IRMd goes on, unless it is told of a layer whose
    name is longer than 255. *)
Theorem ipcp_cmd_any_answer : forall c t, good_cmd c ->
  (call c t = RetUB <-> match c with Bootstrap _ | Enroll _ => True | _ => False end /\
     exists l m y, t = Read l /\ sends c <> None /\ im_unpack (receive l) = Some m /\ c_result m = Some 0%Z /\ c_layer m = Some y /\ long (ml_name y)).
Proof.
  intros c t G. split.
  - intros E. unfold call, sends in *. destruct (request c) as [m|e|] eqn:R; [|discriminate E|].
    + cbv zeta in *. destruct (fits (pack (im_fields m))) eqn:F; [|destruct c; discriminate E].
      destruct (came_back (pack (im_fields m)) t) as [x|] eqn:CB; [|destruct c; discriminate E]. unfold finish in E.
      destruct (c_result x) as [z|] eqn:CR; [|destruct c; discriminate E].
      assert (K : match c with Bootstrap _ | Enroll _ => True | _ => False end) by (destruct c; try discriminate E; exact I).
      split; [exact K|].
      assert (E' : (if negb (z =? 0)%Z then Ret z else match c_layer x with None => Ret EIPCP | Some y =>
         if Nat.leb (length (cstr (ml_name y))) 255 then RetInfo (cstr (ml_name y)) (ml_hash y) else RetUB end) = RetUB) by (destruct c; try (elim K; fail); exact E).
      destruct (Z.eqb_spec z 0) as [Z0|Z0]; cbn [negb] in E'; [|discriminate E']. destruct (c_layer x) as [y|] eqn:CL; [|discriminate E'].
      destruct (Nat.leb_spec (length (cstr (ml_name y))) 255) as [L|L]; [discriminate E'|]. subst z.
      destruct t as [| | |l]; cbn [came_back] in CB; try discriminate CB.
      * rewrite im_rt in CB by (first [exact (request_im _ _ G R) | apply fits_int, F]). injection CB as <-. rewrite (request_no_result _ _ R) in CR. discriminate CR.
      * exists l, x, y. destruct (receive l) as [|b r]; [discriminate CB|]. split; [reflexivity|]. split; [discriminate|]. split; [exact CB|].
        split; [exact CR|]. split; [exact CL|exact L].
    + destruct c; cbn [request] in R; try discriminate R.
      * destruct c as [c|]; [|discriminate R]. destruct (conf_s_rt _ G) as (m' & X & _). rewrite X in R. discriminate R.
      * destruct dst; discriminate R.
  - intros (K & l & m & y & -> & S & U & CR & CL & L). unfold call, sends in *. destruct (request c) as [q|e|]; [|elim S; reflexivity|elim S; reflexivity].
    cbv zeta in *. destruct (fits (pack (im_fields q))); [|elim S; reflexivity]. cbn [came_back].
    destruct (receive l) as [|b r]; [vm_compute in U; discriminate U|]. rewrite U. unfold finish. rewrite CR, CL. unfold long in L.
    destruct c; try (elim K; fail); cbn [Z.eqb negb]; destruct (Nat.leb_spec (length (cstr (ml_name y))) 255); try lia; reflexivity.
Qed.
Print Assumptions ipcp_cmd_any_answer.

(** * What is sent *)
Definition csize (m : ipcp_msg) : nat :=
  (20 + bsz (c_hash m) + nsz (c_fid m) + bsz (c_dst m) + osz qos_fields (c_qos m) + bsz (c_pk m) + osz conf_fields (c_conf m)
   + nsz (c_pid m) + osz layer_fields (c_layer m) + nsz (c_resp m) + bsz (c_comp m) + nsz (c_timeo m) + nsz (c_result m))%nat.
Lemma im_size : forall m, (0 < length (pack (im_fields m)) <= csize m)%nat.
Proof.
  intros m. unfold im_fields, csize. rewrite !len_sum.
  assert (A : (0 < length (pack [(1%N, WVar (c_code m))]) <= 20)%nat).
  { split; [|exact (len_onum 1 (Some (c_code m)))]. rewrite pack_cons, app_length. cbn [put_field]. rewrite app_length. pose proof (put_len10 (c_code m)). lia. }
  pose proof (len_olen 2 (c_hash m)) as B. pose proof (len_onum 3 (option_map sext (c_fid m))) as C. pose proof (len_olen 4 (c_dst m)) as D.
  pose proof (len_olen 5 (option_map (fun x => pack (qos_fields x)) (c_qos m))) as E. pose proof (len_olen 6 (c_pk m)) as F.
  pose proof (len_olen 7 (option_map (fun x => pack (conf_fields x)) (c_conf m))) as G. pose proof (len_onum 8 (option_map sext (c_pid m))) as H.
  pose proof (len_olen 9 (option_map (fun x => pack (layer_fields x)) (c_layer m))) as I. pose proof (len_onum 10 (option_map sext (c_resp m))) as J.
  pose proof (len_olen 11 (c_comp m)) as K. pose proof (len_onum 12 (c_timeo m)) as L. pose proof (len_onum 14 (option_map sext (c_result m))) as M.
  unfold bsz, nsz, osz.
  assert (E' : (length (pack (olen 5 (option_map (fun x => pack (qos_fields x)) (c_qos m)))) <= match c_qos m with Some a => 20 + length (pack (qos_fields a)) | None => 0 end)%nat) by (destruct (c_qos m); exact E).
  assert (G' : (length (pack (olen 7 (option_map (fun x => pack (conf_fields x)) (c_conf m)))) <= match c_conf m with Some a => 20 + length (pack (conf_fields a)) | None => 0 end)%nat) by (destruct (c_conf m); exact G).
  assert (I' : (length (pack (olen 9 (option_map (fun x => pack (layer_fields x)) (c_layer m)))) <= match c_layer m with Some a => 20 + length (pack (layer_fields a)) | None => 0 end)%nat) by (destruct (c_layer m); exact I).
  assert (C' : (length (pack (onum 3 (option_map sext (c_fid m)))) <= match c_fid m with Some _ => 20 | None => 0 end)%nat) by (destruct (c_fid m); exact C).
  assert (H' : (length (pack (onum 8 (option_map sext (c_pid m)))) <= match c_pid m with Some _ => 20 | None => 0 end)%nat) by (destruct (c_pid m); exact H).
  assert (J' : (length (pack (onum 10 (option_map sext (c_resp m)))) <= match c_resp m with Some _ => 20 | None => 0 end)%nat) by (destruct (c_resp m); exact J).
  assert (M' : (length (pack (onum 14 (option_map sext (c_result m)))) <= match c_result m with Some _ => 20 | None => 0 end)%nat) by (destruct (c_result m); exact M).
  clear C E G H I J M. lia.
Qed.
(** Arguments up to 9000 bytes are always sent ... *)
Theorem ipcp_cmd_sent : forall c, good_cmd c -> ~ no_argument c -> N.of_nat (cmd_size c) <= 9000 -> sends c <> None.
Proof.
  intros c G N S. unfold sends. destruct (request c) as [m|e|] eqn:R.
  - cbv zeta. pose proof (im_size m) as [L0 L1]. assert (C : N.of_nat (csize m) < SOCK_BUF_SIZE).
    { clear L0 L1. unfold SOCK_BUF_SIZE. unfold csize, bsz, nsz, osz, osize in *. destruct c; cbn [request cmd_size good_cmd osize] in *.
      - destruct c as [c|]; [|discriminate R]. destruct (conf_s_rt _ G) as (m' & E & O & _). rewrite E in R. injection R as <-.
        cbn [c_hash c_fid c_dst c_qos c_pk c_conf c_pid c_layer c_resp c_comp c_timeo c_result osize] in *; unfold osize in S. pose proof (conf_len _ O). lia.
      - destruct dst; [|discriminate R]. injection R as <-. cbn [c_hash c_fid c_dst c_qos c_pk c_conf c_pid c_layer c_resp c_comp c_timeo c_result osize] in *; unfold osize in S. lia.
      - injection R as <-. cbn [c_hash c_fid c_dst c_qos c_pk c_conf c_pid c_layer c_resp c_comp c_timeo c_result osize] in *; unfold osize in S. pose proof (qos_len q). destruct dst, comp; lia.
      - injection R as <-. cbn [c_hash c_fid c_dst c_qos c_pk c_conf c_pid c_layer c_resp c_comp c_timeo c_result osize] in *; unfold osize in S. destruct dst, comp; lia.
      - injection R as <-. cbn [m_hashed c_hash c_fid c_dst c_qos c_pk c_conf c_pid c_layer c_resp c_comp c_timeo c_result osize] in *; unfold osize in S. lia.
      - injection R as <-. cbn [m_hashed c_hash c_fid c_dst c_qos c_pk c_conf c_pid c_layer c_resp c_comp c_timeo c_result osize] in *; unfold osize in S. lia.
      - injection R as <-. cbn [m_hashed c_hash c_fid c_dst c_qos c_pk c_conf c_pid c_layer c_resp c_comp c_timeo c_result osize] in *; unfold osize in S. lia.
      - injection R as <-. cbn [c_hash c_fid c_dst c_qos c_pk c_conf c_pid c_layer c_resp c_comp c_timeo c_result osize] in *; unfold osize in S. lia.
      - injection R as <-. cbn [c_hash c_fid c_dst c_qos c_pk c_conf c_pid c_layer c_resp c_comp c_timeo c_result osize] in *; unfold osize in S. pose proof (qos_len (fqs f)). lia.
      - injection R as <-. cbn [c_hash c_fid c_dst c_qos c_pk c_conf c_pid c_layer c_resp c_comp c_timeo c_result osize] in *; unfold osize in S. lia.
      - injection R as <-. cbn [c_hash c_fid c_dst c_qos c_pk c_conf c_pid c_layer c_resp c_comp c_timeo c_result osize] in *; unfold osize in S. lia. }
    assert (F : fits (pack (im_fields m)) = true).
    { unfold fits. destruct (Nat.eqb_spec (length (pack (im_fields m))) 0); [lia|]. cbn [negb andb]. apply N.ltb_lt. lia. }
    rewrite F. discriminate.
  - destruct c; cbn [request] in R; try discriminate R.
    + destruct c; [destruct (conf_s_to_msg c); discriminate R|]. elim N. exact I.
    + destruct dst; [discriminate R|]. elim N. exact I.
  - destruct c; cbn [request] in R; try discriminate R.
    + destruct c as [c|]; [|discriminate R]. destruct (conf_s_rt _ G) as (m' & E & _). rewrite E in R. discriminate R.
    + destruct dst; discriminate R.
Qed.
Print Assumptions ipcp_cmd_sent.
(** ... and a command that does not fit in 10239 bytes is not: nothing is done. *)
Theorem ipcp_cmd_too_long : forall c s, In s (bytes_of c) -> 10240 <= N.of_nat (length s) -> sends c = None /\ forall t, call c t = Ret (-1003).
Proof.
  intros c s I L.
  assert (W : forall m t, request c = Msg m -> In (t, WLen s) (im_fields m) -> sends c = None /\ forall t, call c t = Ret (-1003)).
  { intros m t R M. unfold sends, call. rewrite R. cbv zeta. pose proof (len_in_pack _ _ _ M) as X.
    assert (F : fits (pack (im_fields m)) = false).
    { unfold fits. destruct (N.ltb_spec (N.of_nat (length (pack (im_fields m)))) SOCK_BUF_SIZE) as [Y|Y]; [unfold SOCK_BUF_SIZE in Y; lia|]. apply andb_false_r. }
    rewrite F. split; [reflexivity|]. intros _. destruct c; try reflexivity. elim I. }
  destruct c; cbn [bytes_of olist] in I; try (elim I; fail).
  - destruct dst as [d|]; [|elim I]. destruct I as [->|[]]. eapply (W _ 4); [reflexivity|]. right. left. reflexivity.
  - apply in_app_or in I. destruct I as [I|I]; [destruct dst as [d|]|destruct comp as [d|]]; try (elim I; fail); destruct I as [->|[]].
    + eapply (W _ 4); [reflexivity|]. right. left. reflexivity.
    + eapply (W _ 11); [reflexivity|]. unfold im_fields. do 10 (apply in_or_app; right). apply in_or_app. left. left. reflexivity.
  - apply in_app_or in I. destruct I as [I|I]; [destruct dst as [d|]|destruct comp as [d|]]; try (elim I; fail); destruct I as [->|[]].
    + eapply (W _ 4); [reflexivity|]. right. left. reflexivity.
    + eapply (W _ 11); [reflexivity|]. unfold im_fields. do 10 (apply in_or_app; right). apply in_or_app. left. left. reflexivity.
  - destruct I as [->|[]]. eapply (W _ 2); [reflexivity|]. right. left. reflexivity.
  - destruct I as [->|[]]. eapply (W _ 2); [reflexivity|]. right. left. reflexivity.
  - destruct I as [->|[]]. eapply (W _ 2); [reflexivity|]. right. left. reflexivity.
  - destruct I as [->|[]]. eapply (W _ 2); [reflexivity|]. right. left. reflexivity.
  - destruct I as [->|[->|[]]].
    + eapply (W _ 2); [reflexivity|]. right. left. reflexivity.
    + eapply (W _ 6); [reflexivity|]. unfold im_fields. do 5 (apply in_or_app; right). apply in_or_app. left. left. reflexivity.
  - destruct I as [->|[]]. eapply (W _ 6); [reflexivity|]. unfold im_fields. do 5 (apply in_or_app; right). apply in_or_app. left. left. reflexivity.
Qed.
Print Assumptions ipcp_cmd_too_long.

(** * State *)
(** No message but a successful bootstrap or enrolment of an IPCP that was not
    in a layer changes the state. *)
Theorem ipcp_cmd_state : forall p m o, dispatch p m = Ok o -> next o <> st p ->
  next o = SOper /\ st p = SInit /\ (c_code m = 1 \/ c_code m = 2) /\ c_result (reply o) = Some 0%Z /\
  exists k, acts o = [AOp k] /\ op p k = 0%Z /\ match k with OBootstrap _ | OEnroll _ => True | _ => False end.
Proof.
  intros p m o D N.
  assert (J : forall a r, just p a r = Ok o -> False) by (intros a r E; injection E as <-; apply N; reflexivity).
  assert (B : do_bootstrap p (c_conf m) = Ok o -> next o = SOper /\ st p = SInit /\ c_result (reply o) = Some 0%Z /\
     exists k, acts o = [AOp k] /\ op p k = 0%Z /\ match k with OBootstrap _ | OEnroll _ => True | _ => False end).
  { clear D. unfold do_bootstrap. destruct (has p 1); cbn [negb]; [|intros E; elim (J _ _ E)]. destruct (st p) eqn:S; cbn [is_init negb]; try (intros E; elim (J _ _ E); fail).
    destruct (c_conf m) as [c|]; [|discriminate]. destruct (conf_msg_to_s c) as [x| |]; cbn [bind]; try discriminate.
    destruct (Z.eqb_spec (op p (OBootstrap x)) 0) as [Z|Z]; [|intros E; elim (J _ _ E)]. intros E. injection E as <-. cbn [next reply acts answer c_result].
    split; [reflexivity|]. split; [reflexivity|]. split; [rewrite Z; reflexivity|]. eexists. split; [reflexivity|]. split; [exact Z|exact I]. }
  assert (C : do_enroll p (ostr (c_dst m)) = Ok o -> next o = SOper /\ st p = SInit /\ c_result (reply o) = Some 0%Z /\
     exists k, acts o = [AOp k] /\ op p k = 0%Z /\ match k with OBootstrap _ | OEnroll _ => True | _ => False end).
  { clear D. unfold do_enroll. destruct (has p 2); cbn [negb]; [|intros E; elim (J _ _ E)]. destruct (st p) eqn:S; cbn [is_init negb]; try (intros E; elim (J _ _ E); fail).
    destruct (Z.eqb_spec (op p (OEnroll (ostr (c_dst m)))) 0) as [Z|Z]; [|intros E; elim (J _ _ E)]. intros E. injection E as <-. cbn [next reply acts answer c_result].
    split; [reflexivity|]. split; [reflexivity|]. split; [rewrite Z; reflexivity|]. eexists. split; [reflexivity|]. split; [exact Z|exact I]. }
  unfold dispatch, hashed, qosed, do_simple, do_query, do_flow_alloc, do_flow_join, do_flow_alloc_resp, do_flow_dealloc in D. cbv zeta in D.
  Ltac nope D J := repeat match type of D with
    | (if ?b then _ else _) = _ => destruct b
    | match ?x with Some _ => _ | None => _ end = _ => destruct x
    end; first [discriminate D | elim (J _ _ D)].
  destruct (c_code m) as [|n]; [elim (J _ _ D)|].
  repeat (destruct n as [n|n|]; try (nope D J; fail)).
  - destruct (C D) as (X1 & X2 & X3 & X4). split; [exact X1|]. split; [exact X2|]. split; [right; reflexivity|]. split; [exact X3|exact X4].
  - destruct (B D) as (X1 & X2 & X3 & X4). split; [exact X1|]. split; [exact X2|]. split; [left; reflexivity|]. split; [exact X3|exact X4].
Qed.
Print Assumptions ipcp_cmd_state.

(** * Cases *)
Definition c0 : conf := Conf [108; 97; 121] 1 0 NoBody.
Definition p1 : ipcp := Ipcp (fun _ => true) SInit 2 (fun _ => 5%Z) (fun _ => 0%Z) (fun _ => ([108], 1)).
Example bootstrap_case : good_ipcp p1 /\ good_cmd (Bootstrap (Some c0)) /\
  match sends (Bootstrap (Some c0)) with
  | Some l => match serve p1 l with
              | Ok o => acts o = [AOp (OBootstrap c0)] /\ next o = SOper /\ call (Bootstrap (Some c0)) (Read (respond o)) = RetInfo [108; 97; 121] 1
              | _ => False
              end
  | None => False
  end.
Proof.
  split; [split; [intros; cbn; unfold int32; lia|intros d; exact name_l]|].
  split; [cbn; split; [split; [repeat (constructor; [lia|]); constructor|cbn; lia]|split; [reflexivity|split; [reflexivity|intros [A|[A|[A|A]]]; discriminate A]]]|].
  vm_compute. split; [reflexivity|split; reflexivity].
Qed.
Example alloc_case :
  match sends (Alloc f0 [9; 9] [1; 2; 3]) with
  | Some l => match serve p0 l with
              | Ok o => acts o = [ANp1 (NAlloc 7 3); AOp (OAlloc 5 [9; 9] qos_raw [1; 2; 3])] /\ call (Alloc f0 [9; 9] [1; 2; 3]) (Read (respond o)) = Ret 0
              | _ => False
              end
  | None => False
  end.
Proof. vm_compute. split; reflexivity. Qed.
Example resp_case :
  match sends (AllocResp f0 (-1) []) with
  | Some l => match serve p0 l with Ok o => acts o = [AOp (OResp (-1) (-1) [])] | _ => False end
  | None => False
  end.
Proof. vm_compute. reflexivity. Qed.
Example dealloc_case :
  match sends (Dealloc 3 120) with
  | Some l => match serve p0 l with Ok o => acts o = [ANp1 (NDealloc 3 120); AOp (ODealloc 5)] | _ => False end
  | None => False
  end.
Proof. vm_compute. reflexivity. Qed.

(** * Messages the calls above do not send *)
(** A join that does carry a quality of service does what it should. *)
Theorem ipcp_cmd_join_asked p m f h q : c_code m = 7 -> c_hash m = Some h -> length h = hlen p -> c_qos m = Some q ->
  qos_msg_to_s q = fqs f -> c_pid m = Some (n_pid f) -> c_fid m = Some (fid f) ->
  exists o r, dispatch p m = Ok o /\ runs p (Join f h) (acts o) r /\ c_result (reply o) = Some r /\ next o = st p.
Proof.
  intros C H L Q F P I. unfold dispatch. rewrite C. unfold hashed. rewrite H. cbn [dflt].
  rewrite (proj2 (Nat.eqb_eq _ _) L). unfold qosed. rewrite Q, P, I, F. cbn [oz dflt]. unfold do_flow_join.
  destruct (has p 7) eqn:E7; cbn [negb].
  - destruct (st p) eqn:S; cbn [is_oper negb];
      try (eexists _, (-1004)%Z; split; [reflexivity|]; split; [apply (WrongState p (Join f h) SOper); [exact E7|reflexivity|congruence]|]; split; [reflexivity|exact S]).
    destruct (Z.ltb_spec (np1 p (NAlloc (n_pid f) (fid f))) 0) as [B|B].
    + eexists _, (-1)%Z. split; [reflexivity|]. split; [|split; [reflexivity|exact S]].
      apply (NoFd p (Join f h)); [exact E7|intros s E; injection E as <-; exact S|reflexivity|exact B].
    + eexists _, _. split; [reflexivity|]. split; [|split; [reflexivity|exact S]].
      apply (WithFd p (Join f h) _ (-1)%Z); [exact E7|intros s E; injection E as <-; exact S|reflexivity|exact B|reflexivity].
  - eexists _, (-95)%Z. split; [reflexivity|]. split; [apply NotThere; exact E7|]. split; reflexivity.
Qed.
Print Assumptions ipcp_cmd_join_asked.

(** A message with the code of none of the commands is refused. *)
Theorem ipcp_cmd_unknown p m : ~ (1 <= c_code m <= 11) ->
  exists o, dispatch p m = Ok o /\ acts o = [] /\ c_result (reply o) = Some (-1)%Z /\ next o = st p.
Proof.
  intros C. exists (Out [] (answer (-1) None) (st p)). split; [|split; [reflexivity|split; reflexivity]].
  unfold dispatch, just. destruct (c_code m) as [|x]; [reflexivity|].
  do 4 (try (destruct x as [x|x|]; [| |exfalso; lia || reflexivity] || destruct x as [x|x|]); try reflexivity); exfalso; lia.
Qed.
Print Assumptions ipcp_cmd_unknown.
Example unknown_met : ~ (1 <= c_code (answer 0 None) <= 11).
Proof. cbn. lia. Qed.
