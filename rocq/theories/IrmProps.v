(** Theorems about the calls to the IRMd (C99). *)
From Coq Require Import NArith ZArith List Bool Lia ZifyBool ZifyNat ZifyN.
From Verif Require Import WireModel WireProofs EnrollModel EnrollSpec EnrollProps IrmModel IrmSpec IrmProofs.
Import ListNotations.
Local Open Scope N_scope.
Local Opaque put_varint.

(** * Requests *)
Lemma each_none : forall A (P : A -> Prop), each P None.
Proof. intros A P a H. discriminate H. Qed.
Lemma each_some : forall A (P : A -> Prop) a, P a -> each P (Some a).
Proof. intros A P a H b E. injection E as <-. exact H. Qed.
Lemma wanted_good : forall q, good_oqos q -> good_qos (asked q).
Proof.
  intros [q|] H; [|unfold good_qos; cbn; repeat split; reflexivity].
  destruct H as (A & B & C & D & E & F & G & I & J). unfold good_qos. cbn [asked delay bandwidth availability loss ber in_order max_gap cypher_s timeout].
  repeat split; assumption.
Qed.
Lemma fmsg_of : forall f, good_rest f -> fmsg_ok (fi_s_to_msg f).
Proof.
  intros f [A B]. unfold fmsg_ok, fi_s_to_msg. cbn [mf_id mf_npid mf_n1pid mf_mpl mf_state mf_qos].
  repeat split; try apply w32_lt; try exact A; apply (good_qmsg _ B).
Qed.
Lemma tmsg_of : forall t, tmsg_ok (ts_s_to_msg t).
Proof. intros. split; [apply w64_lt|apply w32_lt]. Qed.
Lemma rest_of : forall a b c d s q, s < 2 ^ 32 -> good_qos q -> good_rest (Fi a b c d s q).
Proof. intros. split; assumption. Qed.

Lemma imsg_of : forall i, itype i < 2 ^ 32 -> istate i < 2 ^ 32 -> imsg_ok (ii_s_to_msg i).
Proof. intros i A B. split; [exact A|split; [apply w32_lt|exact B]]. Qed.
Lemma lt1632 : forall n, n < 2 ^ 16 -> n < 2 ^ 32.
Proof. intros n H. eapply N.lt_trans; [exact H|reflexivity]. Qed.

Ltac parts := constructor;
  cbn [m_code m_pid m_flow m_ipcp m_resp m_qos m_conf m_opts m_ipcps m_names m_timeo m_result m_args m_flows empty option_map];
  first [reflexivity | exact (each_none _ _) | exact (Forall_nil _) | refine (each_some _ _ _ _) | idtac];
  try assumption; try apply tmsg_of; try (apply good_qmsg; assumption); try (apply lt1632; assumption);
  try (apply imsg_of; cbn [itype istate]; first [assumption | reflexivity]);
  try (apply fmsg_of; apply rest_of; first [reflexivity | assumption | apply wanted_good; assumption]).
Lemma request_ok : forall self c m, int32 self -> good_call c -> request self c = Msg m -> msg_ok m.
Proof.
  intros self c m S G R.
  assert (Z0 : int32 0) by (unfold int32; lia).
  destruct c; cbn [good_call request] in *;
    repeat match goal with H : _ /\ _ |- _ => destruct H end;
    repeat match type of R with
    | context [match ?x with None => _ | _ => _ end] => destruct x eqn:?
    | context [if ?x then _ else _] => destruct x
    end; try discriminate R; try (injection R as <-); cbn [good_oqos good_otimeo] in *;
    repeat match goal with H : good_rest _ |- _ => destruct H end; subst;
    try (parts; fail).
  - match goal with H : good_conf _ |- _ => destruct (conf_s_rt _ H) as (m' & E & O & _) end. rewrite E in R. injection R as <-. parts.
  - parts. constructor; [exact H0|constructor].
  - destruct timeo; parts.
  - destruct timeo; parts.
  - destruct timeo; parts.
  - destruct timeo; parts.
Qed.

Lemma sent_is : forall self c l, int32 self -> good_call c -> send self c = Send l ->
  exists m, request self c = Msg m /\ irm_unpack l = Some m.
Proof.
  intros self c l S G H. unfold send in H. destruct (request self c) as [m| |] eqn:R; [|discriminate H|discriminate H].
  exists m. split; [reflexivity|]. destruct (N.leb_spec (N.of_nat (length (pack (irm_fields m)))) SOCK_BUF_SIZE) as [L|L].
  - injection H as <-. apply irm_rt; [exact (request_ok _ _ _ S G R)|]. unfold SOCK_BUF_SIZE in L. unfold INT_MAX. lia.
  - destruct (by_dev c); discriminate H.
Qed.

Lemma ostr_id : forall o, otxt o -> ostr o = o.
Proof. intros [s|] H; [|reflexivity]. cbn [ostr option_map]. rewrite cstr_id by exact H. reflexivity. Qed.
Lemma qos_back : forall q, good_qos q -> qos_msg_to_s q = q.
Proof.
  intros q (A & B & C & D & E & F & G & I & J). unfold qos_msg_to_s.
  rewrite (N.mod_small _ 256) by exact C. rewrite (N.mod_small _ 256) by exact F. rewrite (N.mod_small _ 65536) by exact I. destruct q; reflexivity.
Qed.
Lemma flow_back : forall f, good_flow f -> fi_msg_to_s (fi_s_to_msg f) = f.
Proof.
  intros f (A & B & C & D & _ & Q). unfold fi_msg_to_s, fi_s_to_msg. cbn [mf_id mf_npid mf_n1pid mf_mpl mf_state mf_qos].
  rewrite !i32_w32, w32_id, qos_back by assumption. destruct f; reflexivity.
Qed.
Lemma timeo_back : forall t, good_timeo t -> ts_msg_to_s (ts_s_to_msg t) = t.
Proof. intros [a b] [A B]. cbn [fst snd] in *. unfold ts_msg_to_s, ts_s_to_msg. cbn [fst snd mt_sec mt_nsec]. rewrite i64_w64, w32_nsec by assumption. reflexivity. Qed.
Lemma otimeo_back : forall t, good_otimeo t -> option_map ts_msg_to_s (option_map ts_s_to_msg t) = t.
Proof. intros [t|] H; [|reflexivity]. cbn [option_map]. rewrite timeo_back by exact H. reflexivity. Qed.
Lemma map_cstr : forall l, Forall txt l -> map cstr l = l.
Proof. induction 1 as [|s l H _ IH]; [reflexivity|]. cbn [map]. rewrite IH, cstr_id by exact H. reflexivity. Qed.

Lemma removelast_snoc : forall A (l : list A) x, removelast (l ++ [x]) = l.
Proof. intros. rewrite removelast_app by discriminate. apply app_nil_r. Qed.

(** The daemon runs what was called, with the arguments of the call, for every
    call but flow_join whose request was sent. *)
Theorem irm_request_arrives_partial : forall self c l, int32 self -> good_call c -> ~ is_join c ->
  (length (copied c) <= 255)%nat -> options c < 256 -> send self c = Send l ->
  exists k, serve l = Ok k /\ means self c k.
Proof.
  intros self c l S G J C O H. destruct (sent_is _ _ _ S G H) as (m & R & U). unfold serve. rewrite U. clear H U.
  assert (Z0 : int32 0) by (unfold int32; lia).
  destruct c; cbn [good_call request is_join copied options] in *;
    repeat match goal with H : _ /\ _ |- _ => destruct H end;
    repeat match type of R with
    | context [match ?x with None => _ | _ => _ end] => destruct x eqn:?
    | context [if ?x then _ else _] => destruct x eqn:?
    end; try discriminate R; try (injection R as <-); cbn [otxt] in *; try (elim J; exact I; fail).
  3: { match goal with H : good_conf _ |- _ => destruct (conf_s_rt _ H) as (m' & E & _ & B) end. rewrite E in R. injection R as <-.
       unfold dispatch. cbn [m_code m_conf m_pid dflt]. rewrite B. cbn [bind]. eexists. split; [reflexivity|]. split; reflexivity. }
  all: unfold dispatch, m_args, m_flows, empty; cbn [m_code m_prog m_pid m_name m_flow m_ipcp m_exec m_resp m_dst m_hash m_qos m_conf m_opts m_ipcps m_names m_timeo m_comp m_pk m_key m_result dflt option_map].
  all: unfold with_flow, flow0, fi_s_to_msg, fi_msg_to_s, ii_s_to_msg, ii_msg_to_s; cbn [m_flow fid n_pid n_1_pid IrmModel.mpl fstate fqs mf_id mf_npid mf_n1pid mf_mpl mf_state mf_qos mi_type mi_name mi_pid mi_state itype iname ipid istate nname npol].
  all: rewrite ?otimeo_back, ?timeo_back, ?ostr_id, ?i32_w32, ?w32_id, ?qos_back, ?cstr_id
         by first [assumption | exact Z0 | apply wanted_good; assumption].
  all: try (eexists; split; [reflexivity|]; cbn [means fid n_pid n_1_pid IrmModel.mpl fstate fqs itype iname ipid istate nname npol];
            repeat match goal with |- _ /\ _ => split end; reflexivity).
  - destruct (Nat.ltb_spec 255 (length l0)) as [X|X]; [discriminate|]. destruct (Nat.leb_spec (length l0) 255); [|lia].
    cbn [bind]. eexists. split; [reflexivity|]. split; reflexivity.
  - change (prog :: argv ++ [[]]) with ((prog :: argv) ++ [[]]). rewrite removelast_snoc, map_cstr by (constructor; assumption).
    rewrite N.mod_small by exact O. eexists. split; [reflexivity|]. split; [reflexivity|split; reflexivity].
  - destruct (Nat.leb_spec (length l0) 255); [|lia]. eexists. split; [reflexivity|]. split; reflexivity.
  - eexists. split; [reflexivity|]. cbn [means n_pid fqs]. split; [reflexivity|split; [|reflexivity]]. destruct q; reflexivity.
  - eexists. split; [reflexivity|]. cbn [means n_pid fqs]. split; [reflexivity|split; [|split; reflexivity]]. destruct q; reflexivity.
  - destruct (Nat.leb_spec (length (iname i)) 255); [|lia]. cbn [bind]. eexists. split; [reflexivity|]. destruct i; reflexivity.
  - destruct (Nat.leb_spec (length prog) 255); [|lia]. eexists. split; [reflexivity|]. split; reflexivity.
Qed.

(** flow_join asks for an allocation ... *)
Theorem irm_join_is_alloc : forall self d q t l, int32 self -> good_call (FlowJoin d q t) -> send self (FlowJoin d q t) = Send l ->
  exists k, serve l = Ok k /\ means self (FlowAlloc d q t) k.
Proof.
  intros self d q t l S G H. apply (irm_request_arrives_partial self (FlowAlloc d q t) l S G); [intros []|cbn; lia|reflexivity|].
  unfold send in *. cbn [request by_dev] in *. destruct (match q with Some q => 0 <? cypher_s q | None => false end); [discriminate H|exact H].
Qed.
(** ... so that what the caller meant never reaches the daemon. *)
Theorem irm_join_arrives_refuted :
  ~ (forall self c l, int32 self -> good_call c -> (length (copied c) <= 255)%nat -> options c < 256 -> send self c = Send l ->
     exists k, serve l = Ok k /\ means self c k).
Proof.
  intros H. set (c := FlowJoin [97] None None).
  assert (G : good_call c) by (split; [repeat constructor|split; exact I]).
  assert (S : int32 1) by (unfold int32; lia).
  destruct (send 1 c) as [l| |] eqn:E; [|vm_compute in E; discriminate E|vm_compute in E; discriminate E].
  destruct (irm_join_is_alloc 1 _ _ _ l S G E) as (k & K & M).
  destruct (H 1%Z c l S G) as (k' & K' & M'); [cbn; lia|reflexivity|exact E|].
  rewrite K in K'. injection K' as <-. destruct k; try (elim M; fail). elim M'.
Qed.
(** Options above 255 do not arrive either. *)
Theorem irm_options_refuted :
  ~ (forall self c l, int32 self -> good_call c -> ~ is_join c -> (length (copied c) <= 255)%nat -> send self c = Send l ->
     exists k, serve l = Ok k /\ means self c k).
Proof.
  intros H. set (c := BindProgram [47] (Some [97]) 256 []).
  assert (G : good_call c) by (split; [repeat constructor|split; [repeat constructor|split; [reflexivity|constructor]]]).
  assert (S : int32 1) by (unfold int32; lia).
  destruct (send 1 c) as [l| |] eqn:E; [|vm_compute in E; discriminate E|vm_compute in E; discriminate E].
  destruct (H 1%Z c l S G) as (k & K & M); [intros []|cbn; lia|exact E|]. destruct (sent_is _ _ _ S G E) as (m & R & U).
  unfold serve in K. rewrite U in K. cbn in R. injection R as <-. vm_compute in K. injection K as <-. destruct M as (_ & _ & M). discriminate M.
Qed.

(** ** What is refused and what is sent *)
Theorem irm_refused : forall self c, refused c -> exists e, send self c = Refuse e 0 /\ (e = -22 \/ e = -95)%Z.
Proof.
  intros self c R. unfold send. destruct c; cbn [refused request] in *;
    repeat match goal with o : option _ |- _ => destruct o end; try (elim R; fail);
    try (exists (-22)%Z; split; [reflexivity|left; reflexivity]).
  - destruct (Nat.ltb_spec 255 (length l)); [|lia]. exists (-22)%Z. split; [reflexivity|left; reflexivity].
  - destruct (Z.ltb_spec pid 0); [|lia]. exists (-22)%Z. split; [reflexivity|left; reflexivity].
  - subst pid. exists (-22)%Z. split; [reflexivity|left; reflexivity].
  - subst pid. exists (-22)%Z. split; [reflexivity|left; reflexivity].
  - destruct (N.ltb_spec 0 (cypher_s q)); [|lia]. exists (-95)%Z. split; [reflexivity|right; reflexivity].
  - destruct (N.ltb_spec 0 (cypher_s q)); [|lia]. exists (-95)%Z. split; [reflexivity|right; reflexivity].
Qed.

Lemma requested : forall self c, good_call c -> ~ refused c -> exists m, request self c = Msg m.
Proof.
  intros self c G R. destruct c; cbn [refused request good_call] in *;
    repeat match goal with o : option _ |- _ => destruct o end; try (elim R; exact I; fail);
    try (eexists; reflexivity).
  - destruct (Nat.ltb_spec 255 (length l)); [elim R; assumption|]. eexists; reflexivity.
  - destruct (Z.ltb_spec pid 0); [elim R; assumption|]. eexists; reflexivity.
  - destruct (Z.eqb_spec pid (-1)); [elim R; assumption|]. destruct (conf_s_rt c (proj2 G)) as (m & E & _). rewrite E. eexists; reflexivity.
  - destruct (Z.eqb_spec pid (-1)); [elim R; assumption|]. eexists; reflexivity.
  - destruct (N.ltb_spec 0 (cypher_s q)); [elim R; assumption|]. eexists; reflexivity.
  - destruct (N.ltb_spec 0 (cypher_s q)); [elim R; assumption|]. eexists; reflexivity.
Qed.

Lemma len_onum : forall t o, (length (pack (onum t o)) <= match o with Some _ => 20 | None => 0 end)%nat.
Proof. intros t [n|]; [|cbn; lia]. cbn [onum opt]. lens. lia. Qed.
Lemma len_olen : forall t o, (length (pack (olen t o)) <= match o with Some l => 20 + length l | None => 0 end)%nat.
Proof. intros t [n|]; [|cbn; lia]. cbn [olen opt]. lens. lia. Qed.
Lemma len_rlen : forall t l, (length (pack (rlen t l)) <= fold_right (fun s k => 20 + length s + k) 0 l)%nat.
Proof. intros t l. induction l as [|s l IH]; [cbn; lia|]. cbn [rlen map fold_right]. fold (rlen t l). rewrite pack_cons, app_length. pose proof (len_len t s). lia. Qed.

Definition osz {A} (f : A -> list field) (o : option A) : nat := match o with Some a => 20 + length (pack (f a)) | None => 0 end.
Definition bsz (o : option (list N)) : nat := match o with Some l => 20 + length l | None => 0 end.
Definition nsz {A} (o : option A) : nat := match o with Some _ => 20 | None => 0 end.
Definition msize (m : irm_msg) : nat :=
  (20 + bsz (m_prog m) + nsz (m_pid m) + bsz (m_name m) + osz fi_fields (m_flow m) + osz ii_fields (m_ipcp m)
  + fold_right (fun s k => 20 + length s + k) 0 (m_exec m) + nsz (m_resp m) + bsz (m_dst m) + bsz (m_hash m)
  + osz qos_fields (m_qos m) + osz conf_fields (m_conf m) + nsz (m_opts m)
  + fold_right (fun s k => 20 + length s + k) 0 (map (fun x => pack (li_fields x)) (m_ipcps m))
  + fold_right (fun s k => 20 + length s + k) 0 (map (fun x => pack (ni_fields x)) (m_names m))
  + osz ts_fields (m_timeo m) + bsz (m_comp m) + bsz (m_pk m) + bsz (m_key m) + nsz (m_result m))%nat.
Lemma len_omap : forall A t (f : A -> list field) o, (length (pack (olen t (option_map (fun x => pack (f x)) o))) <= osz f o)%nat.
Proof. intros A t f [a|]; [|cbn; lia]. cbn [option_map osz]. apply (len_olen t (Some (pack (f a)))). Qed.
Lemma len_ozz : forall t o, (length (pack (onum t (option_map zz o))) <= nsz o)%nat.
Proof. intros t [a|]; [|cbn; lia]. apply (len_onum t (Some (zz a))). Qed.
Lemma irm_len : forall m, (length (pack (irm_fields m)) <= msize m)%nat.
Proof.
  intros m. unfold irm_fields, msize. rewrite !pack_app, !app_length.
  pose proof (len_var 1 (m_code m)) as H1.
  assert (E1 : length (pack [(1, WVar (m_code m))]) = length (put_field (1, WVar (m_code m)))) by (rewrite pack_cons, pack_nil, app_nil_r; reflexivity).
  rewrite E1. clear E1.
  pose proof (len_olen 2 (m_prog m)). pose proof (len_ozz 3 (m_pid m)). pose proof (len_olen 4 (m_name m)).
  pose proof (len_omap _ 5 fi_fields (m_flow m)). pose proof (len_omap _ 6 ii_fields (m_ipcp m)). pose proof (len_rlen 8 (m_exec m)).
  pose proof (len_ozz 9 (m_resp m)). pose proof (len_olen 10 (m_dst m)). pose proof (len_olen 11 (m_hash m)).
  pose proof (len_omap _ 13 qos_fields (m_qos m)). pose proof (len_omap _ 14 conf_fields (m_conf m)). pose proof (len_onum 15 (m_opts m)).
  pose proof (len_rlen 16 (map (fun x => pack (li_fields x)) (m_ipcps m))). pose proof (len_rlen 17 (map (fun x => pack (ni_fields x)) (m_names m))).
  pose proof (len_omap _ 18 ts_fields (m_timeo m)). pose proof (len_olen 21 (m_comp m)). pose proof (len_olen 22 (m_pk m)).
  pose proof (len_olen 23 (m_key m)). pose proof (len_ozz 26 (m_result m)).
  unfold bsz, nsz in *. repeat match goal with |- context [length (pack ?x)] => generalize dependent (length (pack x)); intros end.
  repeat (apply Nat.add_le_mono; [|assumption]); lia.
Qed.

Lemma fold_bound : forall l n, (fold_right (fun s k => 20 + length s + k) n l <= fold_right (fun s k => osize (Some s) + k) 0 l + n)%nat.
Proof. intros l n. induction l as [|s l IH]; [cbn; lia|]. cbn [fold_right]. change (osize (Some s)) with (32 + length s)%nat. lia. Qed.
Lemma conf_size : forall c m, good_conf c -> conf_s_to_msg c = Ok m -> (length (pack (conf_fields m)) <= 890)%nat.
Proof. intros c m G E. destruct (conf_s_rt c G) as (m' & E' & O & _). rewrite E in E'. injection E' as <-. apply conf_len, O. Qed.
Lemma ii_size : forall m, (length (pack (ii_fields m)) <= 80 + length (mi_name m))%nat.
Proof. intros. unfold ii_fields. lens. lia. Qed.
Lemma ni_size : forall m, (length (pack (ni_fields m)) <= 40 + length (nname m))%nat.
Proof. intros. unfold ni_fields. lens. lia. Qed.

(** A call with valid arguments that are not too long is sent. *)
Theorem irm_sent : forall self c, good_call c -> ~ refused c -> N.of_nat (args_size c) <= 9000 -> exists l, send self c = Send l.
Proof.
  intros self c G R Z. destruct (requested self c G R) as (m & E). exists (pack (irm_fields m)). unfold send. rewrite E.
  assert (L : N.of_nat (length (pack (irm_fields m))) <= 10240).
  2: { destruct (N.leb_spec (N.of_nat (length (pack (irm_fields m)))) SOCK_BUF_SIZE) as [X|X]; [reflexivity|]. unfold SOCK_BUF_SIZE in X. lia. }
  pose proof (irm_len m) as L. enough (N.of_nat (msize m) <= 10240) by lia. clear L.
  destruct c; cbn [refused request good_call args_size] in *;
    repeat match goal with o : option _ |- _ => destruct o end; cbn [osize] in *; try discriminate E;
    try (elim R; exact I; fail);
    repeat match type of E with context [if ?b then _ else _] => destruct b eqn:?; try discriminate E end;
    try (injection E as <-);
    unfold m_args, m_flows, empty, msize, osz, bsz, nsz;
    cbn [m_code m_prog m_pid m_name m_flow m_ipcp m_exec m_resp m_dst m_hash m_qos m_conf m_opts m_ipcps m_names m_timeo m_comp m_pk m_key m_result option_map fold_right map];
    repeat match goal with |- context [length (pack (fi_fields ?x))] => pose proof (fi_len x); generalize dependent (length (pack (fi_fields x))); intros end;
    repeat match goal with |- context [length (pack (qos_fields ?x))] => pose proof (qos_len x); generalize dependent (length (pack (qos_fields x))); intros end;
    repeat match goal with |- context [length (pack (ts_fields ?x))] => pose proof (ts_len x); generalize dependent (length (pack (ts_fields x))); intros end;
    try lia.
  - match goal with |- context [ii_fields ?x] => pose proof (ii_size x) as X; change (mi_name x) with l in X end.
    destruct (Nat.ltb_spec 255 (length l)); [discriminate|]. lia.
  - destruct (conf_s_to_msg c) as [m'| |] eqn:C; [|discriminate E|discriminate E]. injection E as <-.
    pose proof (conf_size c m' (proj2 G) C).
    cbn [m_code m_prog m_pid m_name m_flow m_ipcp m_exec m_resp m_dst m_hash m_qos m_conf m_opts m_ipcps m_names m_timeo m_comp m_pk m_key m_result option_map fold_right map]. lia.
  - cbn [app fold_right]. rewrite fold_right_app. cbn [fold_right length]. pose proof (fold_bound argv 20) as X. cbn [osize] in X. change (20 + 0 + 0)%nat with 20%nat. lia.
  - pose proof (ni_size (Ni l pol)) as X. cbn [nname] in X. lia.
  - match goal with |- context [ii_fields ?x] => pose proof (ii_size x) as X; change (mi_name x) with (iname i) in X end. destruct G as (_ & _ & G & _). lia.
Qed.

(** ** Arguments that do not fit *)
Lemma arg_in : forall self c m s, request self c = Msg m -> In s (args_of c) ->
  (length s < length (pack (irm_fields m)))%nat.
Proof.
  intros self c m s R I.
  assert (K : forall t, In (t, WLen s) (irm_fields m) -> (length s < length (pack (irm_fields m)))%nat) by (intros t; apply len_in_pack).
  destruct c; cbn [args_of request] in *;
    repeat match goal with o : option (list N) |- _ => destruct o end; cbn [olist app] in *; try discriminate R;
    repeat match type of R with context [if ?b then _ else _] => destruct b eqn:?; try discriminate R end;
    try (injection R as <-); try (elim I; fail).
  Ltac in_fields K := eapply K; unfold irm_fields, m_args, m_flows, empty;
    cbn [m_code m_prog m_pid m_name m_flow m_ipcp m_exec m_resp m_dst m_hash m_qos m_conf m_opts m_ipcps m_names m_timeo m_comp m_pk m_key m_result
         option_map map olen onum rlen opt app];
    repeat first [left; reflexivity | right].
  all: try (repeat (destruct I as [->|I]; [in_fields K|]); elim I; fail).
  - destruct I as [->|[->|I]]; [in_fields K|in_fields K|]. eapply K. unfold irm_fields. do 6 (apply in_or_app; right). apply in_or_app. left.
    apply (rlen_in 8). cbn [m_exec]. right. apply in_or_app. left. exact I.
  - destruct I as [->|[]]. assert (N1 : (length s < length (pack (ni_fields (Ni s pol))))%nat) by (apply (len_in_pack _ 1); left; reflexivity).
    assert (N2 : In (17, WLen (pack (ni_fields (Ni s pol)))) (irm_fields (Irm 15 None None None None None [] None None None None None None [] [Ni s pol] None None None None None))).
    { do 14 (apply in_or_app; right). apply in_or_app. left. left. reflexivity. }
    pose proof (len_in_pack _ _ _ N2). lia.
Qed.

(** A call of irm.h with a string that does not fit the buffer of 10240 bytes
    writes outside it. *)
Theorem irm_long_argument_breaks : forall self c s, good_call c -> ~ refused c -> ~ of_dev c -> In s (args_of c) ->
  10240 <= N.of_nat (length s) -> send self c = Overflow.
Proof.
  intros self c s G R D I L. destruct (requested self c G R) as (m & E). pose proof (arg_in _ _ _ _ E I) as X. unfold send. rewrite E.
  destruct (N.leb_spec (N.of_nat (length (pack (irm_fields m)))) SOCK_BUF_SIZE) as [Y|Y]; unfold SOCK_BUF_SIZE in Y; [lia|].
  destruct (by_dev c) eqn:B; [|reflexivity]. elim D. destruct c; try discriminate B; exact Logic.I.
Qed.
Lemma bytes_long : forall b n, 0 < b < 256 -> txt (repeat b n).
Proof. intros b n H. induction n; constructor; assumption. Qed.
Theorem irm_no_overflow_refuted : ~ (forall self c, int32 self -> good_call c -> send self c <> Overflow).
Proof.
  intros H. set (s := repeat 97 (N.to_nat 10240)).
  assert (T : txt s) by (apply bytes_long; lia).
  assert (L : N.of_nat (length s) = 10240) by (unfold s; rewrite repeat_length; apply N2Nat.id). clearbody s.
  apply (H 1%Z (EnrollIpcp 7 (Some s))); [unfold int32; lia|split; [unfold int32; lia|exact T]|].
  apply (irm_long_argument_breaks 1 _ s).
  - split; [unfold int32; lia|exact T].
  - cbn [refused]. lia.
  - intros [].
  - left. reflexivity.
  - lia.
Qed.

(** The calls of dev.h return -ENOMEM instead ... *)
Theorem irm_dev_too_long : forall self c s, good_call c -> ~ refused c -> of_dev c -> In s (args_of c) ->
  10240 <= N.of_nat (length s) -> exists n, send self c = Refuse (-12) n.
Proof.
  intros self c s G R D I L. destruct (requested self c G R) as (m & E). pose proof (arg_in _ _ _ _ E I) as X. unfold send. rewrite E.
  destruct (N.leb_spec (N.of_nat (length (pack (irm_fields m)))) SOCK_BUF_SIZE) as [Y|Y]; unfold SOCK_BUF_SIZE in Y; [lia|].
  assert (B : by_dev c = true) by (destruct c; try (elim D; fail); reflexivity). rewrite B. eexists. reflexivity.
Qed.
(** ... and never write outside the buffer ... *)
Theorem irm_dev_no_overflow : forall self c, good_call c -> of_dev c -> send self c <> Overflow.
Proof.
  intros self c G D H. assert (B : by_dev c = true) by (destruct c; try (elim D; fail); reflexivity).
  unfold send in H. rewrite B in H. destruct (request self c) as [m|e|] eqn:E; [destruct (_ <=? _); discriminate H|discriminate H|].
  destruct c; try (elim D; fail); cbn [request] in E; try discriminate E. destruct q as [q|]; [destruct (0 <? cypher_s q)|]; discriminate E.
Qed.
(** ... but two of them free the buffers of their caller. *)
Definition lends (c : call) : Prop := match c with IpcpFlowReqArr _ _ _ _ | IpcpFlowAllocReply _ _ _ _ _ => True | _ => False end.
Theorem irm_buffers_kept_partial : forall self c e n, ~ lends c -> send self c = Refuse e n -> n = 0%nat.
Proof.
  intros self c e n D H. unfold send in H. destruct (request self c) as [m|x|] eqn:E; [|injection H as _ <-; reflexivity|discriminate H].
  destruct (_ <=? _); [discriminate H|]. destruct (by_dev c) eqn:B; [|discriminate H]. injection H as _ <-.
  destruct c; try discriminate B; try (elim D; exact I; fail); cbn [request] in E; try (injection E as <-; reflexivity).
  destruct q as [q|]; [destruct (0 <? cypher_s q); [discriminate E|]|]; injection E as <-; reflexivity.
Qed.
Theorem irm_buffers_freed : forall self c s, good_call c -> lends c -> In s (args_of c) -> 10240 <= N.of_nat (length s) ->
  send self c = Refuse (-12) (length (args_of c)).
Proof.
  intros self c s G D I L. assert (R : ~ refused c) by (destruct c; try (elim D; fail); exact (fun x => x)).
  destruct (requested self c G R) as (m & E). pose proof (arg_in _ _ _ _ E I) as X. unfold send. rewrite E.
  destruct (N.leb_spec (N.of_nat (length (pack (irm_fields m)))) SOCK_BUF_SIZE) as [Y|Y]; unfold SOCK_BUF_SIZE in Y; [lia|].
  destruct c; try (elim D; fail); cbn [request] in E; injection E as <-; reflexivity.
Qed.
Theorem irm_buffers_kept_refuted : ~ (forall self c e n, int32 self -> good_call c -> send self c = Refuse e n -> n = 0%nat).
Proof.
  intros H. set (s := repeat 0 (N.to_nat 10240)).
  assert (L : N.of_nat (length s) = 10240) by (unfold s; rewrite repeat_length; apply N2Nat.id). clearbody s.
  assert (G : good_call (IpcpFlowReqArr [1] qos_raw 0 s)) by (split; [apply (wanted_good None); exact I|unfold good_mpl; lia]).
  assert (X := H 1%Z (IpcpFlowReqArr [1] qos_raw 0 s) (-12)%Z 2%nat).
  assert (2 = 0)%nat; [|discriminate]. apply X; [unfold int32; lia|exact G|].
  apply (irm_buffers_freed 1 (IpcpFlowReqArr [1] qos_raw 0 s) s); [exact G|exact I|right; left; reflexivity|lia].
Qed.

(** ** What comes back *)
Lemma lmsg_of : forall i, good_ipcp i -> lmsg_ok (LiMsg (w32 (lpid i)) (ltype i) (liname i) (llayer i) (lhash i)).
Proof. intros i (A & B & C & D & E). split; [apply w32_lt|split; assumption]. Qed.
Lemma reply_ok : forall k a, good_ans a -> msg_ok (reply k a).
Proof.
  intros k a (R & (_ & _ & _ & _ & F) & P & M).
  assert (int32 EPERM) by (unfold int32, EPERM; lia). assert (int32 (-1)) by (unfold int32; lia).
  constructor; unfold reply; cbn [m_code m_pid m_flow m_ipcp m_resp m_qos m_conf m_opts m_ipcps m_names m_timeo m_result]; try exact (each_none _ _).
  - reflexivity.
  - match goal with |- each _ (if ?b then _ else _) => destruct b end; [|exact (each_none _ _)]. refine (each_some _ _ _ _). apply fmsg_of, F.
  - destruct k; try constructor. apply Forall_map. eapply Forall_impl; [|exact P]. intros i. apply lmsg_of.
  - destruct k; try constructor. eapply Forall_impl; [|exact M]. intros n (_ & X). exact X.
  - refine (each_some _ _ _ _). destruct (_ && _); [assumption|]. destruct k; assumption.
Qed.

Definition after (self : Z) (c : call) (m : irm_msg) : ret :=
  match c with
  | FlowAccept _ _ | FlowAlloc _ _ _ => flow_result true m
  | FlowJoin _ _ _ => flow_result false m
  | IpcpFlowReqArr _ _ _ _ =>
      match flow_result false m with
      | RetFlow f k => RetFlow (Fi (fid f) self (n_pid f) 0 (fstate f) (fqs f)) k
      | r => r
      end
  | ListIpcps => match all_of list_ipcp (m_ipcps m) with Some l => RetIpcps l | None => RetUB end
  | ListNames => RetNames (map list_name (m_names m))
  | _ => Ret (dflt (no_result c) (m_result m))
  end.
Definition shown (r : ret) : done := match r with RetUB => Crashed false | r => Returned r end.
Lemma finish_is : forall self c l, finish self c l = match irm_unpack l with None => Ret EIRMD | Some m => after self c m end.
Proof. reflexivity. Qed.

Definition result_of (k : cmd) (a : ans) : Z := dflt 0%Z (m_result (reply k a)).
Definition silent (z : Z) : bool := (z =? -32)%Z || (z =? -1002)%Z.
Lemma answered : forall irmd self c l k, send self c = Send l -> serve l = Ok k -> good_ans (irmd k) ->
  N.of_nat (length (pack (irm_fields (reply k (irmd k))))) <= 10240 ->
  whole irmd self c = shown (if silent (result_of k (irmd k)) then Ret (-1002) else after self c (reply k (irmd k))).
Proof.
  intros irmd self c l k S V G F. unfold whole. rewrite S, V, finish_is. unfold respond. fold (result_of k (irmd k)).
  change ((result_of k (irmd k) =? EPIPE)%Z || (result_of k (irmd k) =? EIRMD)%Z) with (silent (result_of k (irmd k))).
  destruct (silent (result_of k (irmd k))).
  - unfold receive. rewrite firstn_nil. reflexivity.
  - unfold receive. rewrite firstn_all2 by (unfold SOCK_BUF_SIZE; lia).
    rewrite irm_rt by first [apply reply_ok, G | unfold INT_MAX; lia]. destruct (after self c (reply k (irmd k))); reflexivity.
Qed.

Definition no_list (k : cmd) : Prop := match k with DoListIpcps | DoListNames => False | _ => True end.
Lemma short_reply : forall f key z n, (osz fi_fields f <= 320)%nat -> (bsz key <= 20 + n)%nat ->
  (length (pack (irm_fields (Irm 27 None None None f None [] None None None None None None [] [] None None None key (Some z)))) <= 400 + n)%nat.
Proof.
  intros f key z n F K. eapply Nat.le_trans; [apply irm_len|]. unfold msize.
  cbn [m_code m_prog m_pid m_name m_flow m_ipcp m_exec m_resp m_dst m_hash m_qos m_conf m_opts m_ipcps m_names m_timeo m_comp m_pk m_key m_result map fold_right].
  change (bsz None) with 0%nat. change (nsz (@None Z)) with 0%nat. change (nsz (@None N)) with 0%nat. change (nsz (Some z)) with 20%nat.
  change (osz ii_fields None) with 0%nat. change (osz qos_fields None) with 0%nat. change (osz conf_fields None) with 0%nat. change (osz ts_fields None) with 0%nat. lia.
Qed.
Lemma reply_size : forall k a, no_list k -> (length (pack (irm_fields (reply k a))) <= 400 + length (a_key a))%nat.
Proof.
  intros k a N. pose proof (fi_len (fi_s_to_msg (a_flow a))) as F.
  assert (X : forall b : bool, (osz fi_fields (if b then Some (fi_s_to_msg (a_flow a)) else None) <= 320)%nat) by (intros []; unfold osz; lia).
  assert (Y : forall b : bool, (bsz (if b then Some (a_key a) else None) <= 20 + length (a_key a))%nat) by (intros []; unfold bsz; lia).
  destruct k; try (elim N; fail); unfold reply; apply short_reply; first [exact (X false) | exact (Y false) | apply X | apply Y].
Qed.

Lemma spoken_told : forall t r, silent (if negb t && (r =? ETIMEDOUT)%Z then EPERM else r) = silent r /\
  (if silent r then (-1002)%Z else if negb t && (r =? ETIMEDOUT)%Z then EPERM else r) = told t r.
Proof.
  intros t r. unfold told, silent, ETIMEDOUT, EPERM. destruct (Z.eqb_spec r (-110)) as [->|N]; [destruct t; split; reflexivity|].
  rewrite !andb_false_r. split; reflexivity.
Qed.

(** A call that gives a number gives the number of the daemon. *)
Theorem irm_result : forall irmd self c l k, int32 self -> good_call c -> gives_number c ->
  send self c = Send l -> serve l = Ok k -> (forall k, good_ans (irmd k) /\ N.of_nat (length (a_key (irmd k))) <= 9000) ->
  whole irmd self c = Returned (Ret (told true (a_res (irmd k)))).
Proof.
  intros irmd self c l k S G N H V A. destruct (A k) as (A1 & A2).
  assert (M : no_list k /\ match k with DoAlloc _ _ _ _ | DoJoin _ _ _ | DoNothing => False | _ => True end).
  { destruct (sent_is _ _ _ S G H) as (m & R & U). unfold serve in V. rewrite U in V. clear H U A A1 A2.
    destruct c; try (elim N; fail); cbn [request] in R;
    repeat match type of R with
    | context [match ?x with None => _ | _ => _ end] => destruct x eqn:?
    | context [if ?x then _ else _] => destruct x eqn:?
    | context [match ?x with Ok _ => _ | _ => _ end] => destruct x eqn:?
    end; try discriminate R; try (injection R as <-);
    unfold dispatch, m_args, m_flows, empty in V; cbn [m_code m_ipcp m_conf m_qos m_exec m_prog m_names m_flow m_pk m_timeo with_flow dflt option_map] in V;
    unfold bind in V;
    repeat match type of V with
    | context [match ?x with None => _ | _ => _ end] => destruct x eqn:?
    | context [if ?x then _ else _] => destruct x eqn:?
    | context [match ?x with Ok _ => _ | _ => _ end] => destruct x eqn:?
    end; try discriminate V; injection V as <-; split; exact I. }
  destruct M as (M1 & M2). rewrite (answered _ _ _ _ _ H V A1) by (pose proof (reply_size k (irmd k) M1); lia).
  assert (R : result_of k (irmd k) = a_res (irmd k)).
  { unfold result_of, reply. cbn [m_result dflt]. destruct k; try (elim M2; fail); reflexivity. }
  assert (R2 : m_result (reply k (irmd k)) = Some (a_res (irmd k))).
  { unfold reply. cbn [m_result]. destruct k; try (elim M2; fail); reflexivity. }
  rewrite R. assert (T : after self c (reply k (irmd k)) = Ret (a_res (irmd k))).
  { destruct c; try (elim N; fail); cbn [after]; rewrite R2; reflexivity. }
  rewrite T. destruct (spoken_told true (a_res (irmd k))) as (_ & Q). cbn [negb andb] in Q. rewrite <- Q. destruct (silent (a_res (irmd k))); reflexivity.
Qed.

(** ** Flows *)
Definition flow_told (t : bool) (a : ans) (keyed : bool) (f : flowi) (r : ret) : Prop :=
  if (a_res a <? 0)%Z then r = Ret (told t (a_res a))
  else if keyed && (0 <? cypher_s (fqs f)) then match a_key a with [] => r = Ret (-1007) | b => r = RetFlow f (Some b) end
  else r = RetFlow f None.

Lemma told_neg : forall t r, (r < 0)%Z -> (told t r < 0)%Z.
Proof. intros t r H. unfold told. destruct (_ || _); [lia|]. destruct (_ && _); lia. Qed.

(** What flow_accept and flow_alloc give: the error of the daemon, or the
    flow it made, with its key if the flow is encrypted. *)
Theorem irm_flow_result : forall irmd self c l k, int32 self -> good_call c -> gives_flow c -> send self c = Send l -> serve l = Ok k ->
  (forall k, good_ans (irmd k) /\ (a_res (irmd k) <= 0)%Z /\ N.of_nat (length (a_key (irmd k))) <= 9000) ->
  exists r, whole irmd self c = Returned r /\ flow_told (timed c) (irmd k) true (a_flow (irmd k)) r.
Proof.
  intros irmd self c l k S G N H V A. destruct (A k) as (A1 & A3 & A2).
  assert (J : ~ is_join c) by (destruct c; try (elim N; fail); intros []).
  assert (C : (length (copied c) <= 255)%nat) by (destruct c; try (elim N; fail); cbn [copied length]; lia).
  assert (O : options c < 256) by (destruct c; try (elim N; fail); reflexivity).
  destruct (irm_request_arrives_partial self c l S G J C O H) as (k' & V' & M). rewrite V in V'. injection V' as <-.
  assert (M1 : no_list k) by (destruct c, k; try (elim M; fail); try (elim N; fail); exact I).
  rewrite (answered _ _ _ _ _ H V A1) by (pose proof (reply_size k (irmd k) M1); lia).
  assert (T : result_of k (irmd k) = (if negb (timed c) && (a_res (irmd k) =? ETIMEDOUT)%Z then EPERM else a_res (irmd k))).
  { destruct c, k; try (elim M; fail); try (elim N; fail); try reflexivity. destruct M as (_ & _ & _ & ->). destruct timeo; reflexivity. }
  destruct (spoken_told (timed c) (a_res (irmd k))) as (Q1 & Q2). rewrite T, Q1.
  assert (F : after self c (reply k (irmd k)) = flow_result true (reply k (irmd k))) by (destruct c; try (elim N; fail); reflexivity).
  assert (X : m_result (reply k (irmd k)) = Some (result_of k (irmd k))) by reflexivity. rewrite T in X.
  rewrite F. unfold flow_result. rewrite X.
  destruct (silent (a_res (irmd k))) eqn:Z.
  - assert (L : (a_res (irmd k) <? 0 = true)%Z).
    { unfold silent in Z. apply orb_prop in Z. destruct Z as [Z|Z]; apply Z.eqb_eq in Z; rewrite Z; reflexivity. }
    exists (Ret (-1002)). split; [reflexivity|]. unfold flow_told. rewrite L, <- Q2. reflexivity.
  - destruct (Z.ltb_spec (a_res (irmd k)) 0) as [L|L].
    + pose proof (told_neg (timed c) _ L) as TN. rewrite <- Q2 in TN. apply Z.ltb_lt in TN. rewrite TN.
      eexists. split; [reflexivity|]. unfold flow_told. apply Z.ltb_lt in L. rewrite L, Q2. reflexivity.
    + assert (E : a_res (irmd k) = 0%Z) by lia.
      assert (W : m_flow (reply k (irmd k)) = Some (fi_s_to_msg (a_flow (irmd k))) /\
                  m_key (reply k (irmd k)) = match a_key (irmd k) with [] => None | b => Some b end).
      { destruct c, k; try (elim M; fail); try (elim N; fail); unfold reply; cbn [m_flow m_key]; rewrite E;
          (split; [reflexivity|]; destruct (a_key _); reflexivity). }
      destruct W as (W1 & W2). rewrite W1, W2, E. rewrite andb_false_r. cbn [Z.ltb Z.compare].
      destruct A1 as (_ & A1 & _). rewrite (flow_back _ A1). unfold flow_told. rewrite E. cbn [Z.ltb Z.compare andb].
      destruct (0 <? cypher_s (fqs (a_flow (irmd k)))); cbn [andb]; [|eexists; split; reflexivity].
      destruct (a_key (irmd k)); eexists; split; reflexivity.
Qed.

(** The IPCP that asks for a flow to be accepted gets the flow as seen from
    its side: no MPL, its own process number first. *)
Theorem irm_req_arr_result : forall irmd self h q m d l k, int32 self -> good_call (IpcpFlowReqArr h q m d) ->
  send self (IpcpFlowReqArr h q m d) = Send l -> serve l = Ok k ->
  (forall k, good_ans (irmd k) /\ (a_res (irmd k) <= 0)%Z /\ N.of_nat (length (a_key (irmd k))) <= 9000) ->
  exists r, whole irmd self (IpcpFlowReqArr h q m d) = Returned r /\
    flow_told true (irmd k) false (let f := a_flow (irmd k) in Fi (fid f) self (n_pid f) 0 (fstate f) (fqs f)) r.
Proof.
  intros irmd self h q m d l k S G H V A. destruct (A k) as (A1 & A3 & A2).
  destruct (irm_request_arrives_partial self _ l S G (fun x => x) (Nat.le_0_l 255) (eq_refl : 0 < 256) H) as (k' & V' & M). rewrite V in V'. injection V' as <-.
  destruct k; try (elim M; fail). set (k := DoReqArr f hash data) in *.
  rewrite (answered _ _ _ _ _ H V A1) by (pose proof (reply_size k (irmd k) I); lia).
  assert (T : result_of k (irmd k) = a_res (irmd k)) by reflexivity.
  assert (X : m_result (reply k (irmd k)) = Some (a_res (irmd k))) by reflexivity.
  assert (W : a_res (irmd k) = 0%Z -> m_flow (reply k (irmd k)) = Some (fi_s_to_msg (a_flow (irmd k)))).
  { intros E. unfold reply, k. cbn [m_flow]. fold k. rewrite E. reflexivity. }
  clearbody k. rewrite T. cbn [after]. unfold flow_result. rewrite X.
  destruct (spoken_told true (a_res (irmd k))) as (_ & Q2). cbn [negb andb] in Q2.
  destruct (silent (a_res (irmd k))) eqn:Z.
  - assert (L : (a_res (irmd k) <? 0 = true)%Z).
    { unfold silent in Z. apply orb_prop in Z. destruct Z as [Z|Z]; apply Z.eqb_eq in Z; rewrite Z; reflexivity. }
    exists (Ret (-1002)). split; [reflexivity|]. unfold flow_told. rewrite L, <- Q2. reflexivity.
  - unfold flow_told. destruct (a_res (irmd k) <? 0)%Z eqn:L.
    + eexists. split; [reflexivity|]. rewrite <- Q2. reflexivity.
    + apply Z.ltb_ge in L. rewrite W by lia. destruct A1 as (_ & A1 & _). rewrite (flow_back _ A1), andb_false_r. cbn [andb].
      eexists. split; reflexivity.
Qed.

(** ** Lists *)
Lemma names_len : forall l, (fold_right (fun s k => 20 + length s + k) 0 (map (fun x => pack (ni_fields x)) l) <= names_size l)%nat.
Proof. induction l as [|n l IH]; [reflexivity|]. cbn [map fold_right names_size]. pose proof (ni_size n). unfold names_size in IH. lia. Qed.
Lemma li_size : forall m, (length (pack (li_fields m)) <= 100 + length (mli_name m) + length (mli_layer m))%nat.
Proof. intros m. unfold li_fields. lens. lia. Qed.
Lemma ipcps_len : forall l, (fold_right (fun s k => 20 + length s + k) 0
  (map (fun x => pack (li_fields x)) (map (fun i => LiMsg (w32 (lpid i)) (ltype i) (liname i) (llayer i) (lhash i)) l)) <= ipcps_size l)%nat.
Proof.
  induction l as [|i l IH]; [reflexivity|]. cbn [map fold_right ipcps_size].
  pose proof (li_size (LiMsg (w32 (lpid i)) (ltype i) (liname i) (llayer i) (lhash i))). cbn [mli_name mli_layer] in *. unfold ipcps_size in IH. lia.
Qed.
Lemma list_name_id : forall n, good_name n -> (length (nname n) <= 254)%nat -> list_name n = n.
Proof.
  intros n (T & _) L. unfold list_name. rewrite cstr_id by exact T. destruct (Nat.leb_spec 255 (length (nname n))); [lia|]. destruct n; reflexivity.
Qed.
Lemma list_size : forall li ln z, 
  (length (pack (irm_fields (Irm 27 None None None None None [] None None None None None None li ln None None None None (Some z)))) <=
   40 + fold_right (fun s k => 20 + length s + k) 0 (map (fun x => pack (li_fields x)) li)
      + fold_right (fun s k => 20 + length s + k) 0 (map (fun x => pack (ni_fields x)) ln))%nat.
Proof.
  intros li ln z. eapply Nat.le_trans; [apply irm_len|]. unfold msize.
  cbn [m_code m_prog m_pid m_name m_flow m_ipcp m_exec m_resp m_dst m_hash m_qos m_conf m_opts m_ipcps m_names m_timeo m_comp m_pk m_key m_result].
  change (bsz None) with 0%nat. change (nsz (@None Z)) with 0%nat. change (nsz (@None N)) with 0%nat. change (nsz (Some z)) with 20%nat.
  change (osz ii_fields None) with 0%nat. change (osz qos_fields None) with 0%nat. change (osz conf_fields None) with 0%nat. change (osz ts_fields None) with 0%nat.
  change (osz fi_fields None) with 0%nat. change (fold_right (fun (s : list N) k => 20 + length s + k) 0 [])%nat with 0%nat. lia.
Qed.
Lemma serve_list : forall self c l, int32 self -> c = ListNames \/ c = ListIpcps -> send self c = Send l ->
  serve l = Ok (match c with ListNames => DoListNames | _ => DoListIpcps end).
Proof.
  intros self c l S C H. assert (G : good_call c) by (destruct C as [-> | ->]; exact I).
  destruct (sent_is _ _ _ S G H) as (m & R & U). unfold serve. rewrite U. destruct C as [-> | ->]; injection R as <-; reflexivity.
Qed.
Lemma send_list : forall self c, c = ListNames \/ c = ListIpcps -> exists l, send self c = Send l.
Proof. intros self c [-> | ->]; apply irm_sent; try exact I; try exact (fun x => x); discriminate. Qed.

(** irm_list_names gives the names of the daemon, if they are not too long
    and not too many. *)
Theorem irm_list_names_partial : forall irmd self, int32 self -> let a := irmd DoListNames in
  good_ans a -> spoken (a_res a) -> Forall (fun n => (length (nname n) <= 254)%nat) (a_names a) -> N.of_nat (names_size (a_names a)) <= 10200 ->
  whole irmd self ListNames = Returned (RetNames (a_names a)).
Proof.
  intros irmd self S a G R L Z. destruct (send_list self ListNames (or_introl eq_refl)) as (l & H).
  pose proof (serve_list self ListNames l S (or_introl eq_refl) H) as V. cbv iota in V.
  rewrite (answered _ _ _ _ _ H V G).
  - change (result_of DoListNames (irmd DoListNames)) with (a_res a). destruct R as (R1 & R2). unfold silent.
    destruct (Z.eqb_spec (a_res a) (-32)); [elim R1; assumption|]. destruct (Z.eqb_spec (a_res a) (-1002)); [elim R2; assumption|].
    cbn [orb after]. unfold reply. cbn [m_names]. fold a. destruct G as (_ & _ & _ & G).
    assert (E : map list_name (a_names a) = a_names a); [|rewrite E; reflexivity].
    clear - G L. induction (a_names a) as [|n t IH]; [reflexivity|]. inversion G; inversion L; subst. cbn [map].
    rewrite list_name_id, IH by assumption. reflexivity.
  - unfold reply. fold a. pose proof (list_size [] (a_names a) (a_res a)) as X. pose proof (names_len (a_names a)) as Y.
    cbn [map fold_right] in X. cbn [no_timeo andb negb]. cbv iota. clear - X Y Z. revert X. match goal with |- (?p <= _)%nat -> N.of_nat ?q <= _ => change q with p; generalize p end. intros p X. lia.
Qed.
Theorem irm_list_ipcps_partial : forall irmd self, int32 self -> let a := irmd DoListIpcps in
  good_ans a -> spoken (a_res a) -> Forall (fun i => (length (liname i) <= 254 /\ length (llayer i) <= 254)%nat) (a_ipcps a) ->
  N.of_nat (ipcps_size (a_ipcps a)) <= 10200 ->
  whole irmd self ListIpcps = Returned (RetIpcps (a_ipcps a)).
Proof.
  intros irmd self S a G R L Z. destruct (send_list self ListIpcps (or_intror eq_refl)) as (l & H).
  pose proof (serve_list self ListIpcps l S (or_intror eq_refl) H) as V. cbv iota in V.
  rewrite (answered _ _ _ _ _ H V G).
  - change (result_of DoListIpcps (irmd DoListIpcps)) with (a_res a). destruct R as (R1 & R2). unfold silent.
    destruct (Z.eqb_spec (a_res a) (-32)); [elim R1; assumption|]. destruct (Z.eqb_spec (a_res a) (-1002)); [elim R2; assumption|].
    cbn [orb after]. unfold reply. cbn [m_ipcps]. fold a. destruct G as (_ & _ & G & _).
    rewrite (all_of_map _ _ list_ipcp (fun i => LiMsg (w32 (lpid i)) (ltype i) (liname i) (llayer i) (lhash i))); [reflexivity|].
    intros i I. rewrite Forall_forall in G, L. destruct (G i I) as (A & B & C & D & E). destruct (L i I) as (L1 & L2).
    unfold list_ipcp. cbn [mli_pid mli_type mli_name mli_layer mli_hash]. rewrite !cstr_id, i32_w32 by assumption.
    destruct (Nat.ltb_spec (length (liname i)) 255); [|lia]. destruct (Nat.ltb_spec (length (llayer i)) 255); [|lia]. destruct i; reflexivity.
  - unfold reply. fold a. pose proof (list_size (map (fun i => LiMsg (w32 (lpid i)) (ltype i) (liname i) (llayer i) (lhash i)) (a_ipcps a)) [] (a_res a)) as X.
    pose proof (ipcps_len (a_ipcps a)) as Y. cbn [fold_right] in X. cbn [no_timeo andb negb]. cbv iota. clear - X Y Z. revert X.
    match goal with |- (?p <= _)%nat -> N.of_nat ?q <= _ => change q with p; generalize p end. intros p X.
    change (fold_right (fun s k => 20 + length s + k) 0 (map (fun x => pack (ni_fields x)) []))%nat with 0%nat in X. lia.
Qed.

(** A name of 255 characters, which the daemon accepts, is listed without its
    last one ... *)
Definition ans_names (r : Z) (l : list namei) : ans := Ans r (Fi 0 0 0 0 0 qos_raw) [] [] l.
Definition ans_ipcps (r : Z) (l : list lipcp) : ans := Ans r (Fi 0 0 0 0 0 qos_raw) [] l [].
Lemma no_flow_good : good_flow (Fi 0 0 0 0 0 qos_raw).
Proof.
  assert (int32 0) by (unfold int32; lia). repeat (split; [first [assumption | unfold good_mpl; cbn; lia | reflexivity]|]). reflexivity.
Qed.
Lemma good_ans_names : forall r l, int32 r -> Forall good_name l -> good_ans (ans_names r l).
Proof.
  intros r l R L. split; [exact R|split; [|split; [constructor|exact L]]].
  exact no_flow_good.
Qed.
Lemma good_ans_ipcps : forall r l, int32 r -> Forall good_ipcp l -> good_ans (ans_ipcps r l).
Proof.
  intros r l R L. split; [exact R|split; [|split; [exact L|constructor]]].
  exact no_flow_good.
Qed.
Theorem irm_list_names_cut : forall self s p, int32 self -> txt s -> length s = 255%nat -> p < 2 ^ 32 ->
  whole (fun _ => ans_names 0 [Ni s p]) self ListNames = Returned (RetNames [Ni (firstn 254 s) p]).
Proof.
  intros self s p S T L P. destruct (send_list self ListNames (or_introl eq_refl)) as (l & H).
  pose proof (serve_list self ListNames l S (or_introl eq_refl) H) as V. cbv iota in V.
  assert (G : good_ans (ans_names 0 [Ni s p])) by (apply good_ans_names; [unfold int32; lia|constructor; [split; assumption|constructor]]).
  rewrite (answered _ _ _ _ _ H V G).
  - change (result_of DoListNames (ans_names 0 [Ni s p])) with 0%Z. cbn [silent Z.eqb orb after]. unfold reply. cbn [m_names ans_names a_names map shown].
    unfold list_name. cbn [nname npol]. rewrite cstr_id by exact T. rewrite L. reflexivity.
  - pose proof (list_size [] [Ni s p] 0) as X. pose proof (names_len [Ni s p]) as Y. unfold names_size in Y. cbn [fold_right nname] in Y. rewrite L in Y.
    cbn [map fold_right] in X, Y. unfold reply. cbn [a_res ans_names a_names no_timeo andb Z.eqb]. clear - X Y.
    revert X Y. match goal with |- (?p <= _)%nat -> _ -> N.of_nat ?q <= _ => change q with p; generalize p end. intros q X Y. lia.
Qed.
(** ... and an IPCP or layer with such a name breaks the caller: 256 bytes
    into 255. *)
Theorem irm_list_ipcps_breaks : forall self i, int32 self -> good_ipcp i -> (length (liname i) <= 255)%nat -> (length (llayer i) <= 255)%nat ->
  length (liname i) = 255%nat \/ length (llayer i) = 255%nat ->
  whole (fun _ => ans_ipcps 0 [i]) self ListIpcps = Crashed false.
Proof.
  intros self i S I L1 L2 L. destruct (send_list self ListIpcps (or_intror eq_refl)) as (l & H).
  pose proof (serve_list self ListIpcps l S (or_intror eq_refl) H) as V. cbv iota in V.
  assert (G : good_ans (ans_ipcps 0 [i])) by (apply good_ans_ipcps; [unfold int32; lia|constructor; [exact I|constructor]]).
  rewrite (answered _ _ _ _ _ H V G).
  - change (result_of DoListIpcps (ans_ipcps 0 [i])) with 0%Z. cbn [silent Z.eqb orb after]. unfold reply. cbn [m_ipcps ans_ipcps a_ipcps map].
    unfold all_of. cbn [fold_right]. unfold list_ipcp. cbn [mli_pid mli_type mli_name mli_layer mli_hash]. destruct I as (A & B & C & D & E). rewrite !cstr_id by assumption.
    assert (X : Nat.ltb (length (liname i)) 255 && Nat.ltb (length (llayer i)) 255 = false); [|rewrite X; reflexivity].
    destruct (Nat.ltb_spec (length (liname i)) 255), (Nat.ltb_spec (length (llayer i)) 255); try reflexivity. lia.
  - pose proof (list_size [LiMsg (w32 (lpid i)) (ltype i) (liname i) (llayer i) (lhash i)] [] 0) as X. pose proof (ipcps_len [i]) as Y.
    unfold ipcps_size in Y. cbn [fold_right] in Y.
    cbn [map fold_right] in X, Y. unfold reply. cbn [a_res ans_ipcps a_ipcps no_timeo andb Z.eqb map]. clear - X Y L1 L2.
    revert X Y. match goal with |- (?p <= _)%nat -> _ -> N.of_nat ?q <= _ => change q with p; generalize p end. intros q X Y. lia.
Qed.
Theorem irm_list_ipcps_refuted : ~ (forall irmd self, int32 self -> good_ans (irmd DoListIpcps) -> a_res (irmd DoListIpcps) = 0%Z ->
  Forall (fun i => (length (liname i) <= 255 /\ length (llayer i) <= 255)%nat) (a_ipcps (irmd DoListIpcps)) ->
  N.of_nat (ipcps_size (a_ipcps (irmd DoListIpcps))) <= 10200 -> exists r, whole irmd self ListIpcps = Returned r).
Proof.
  intros X. set (i := Li 1 0 (repeat 97 255) [] 0).
  assert (I : good_ipcp i) by (split; [unfold int32; cbn; lia|split; [reflexivity|split; [apply bytes_long; lia|split; [constructor|reflexivity]]]]).
  assert (S : int32 1) by (unfold int32; lia).
  assert (L1 : length (liname i) = 255%nat) by reflexivity. assert (L2 : length (llayer i) = 0%nat) by reflexivity. clearbody i.
  destruct (X (fun _ => ans_ipcps 0 [i]) 1%Z S) as (r & R).
  - apply good_ans_ipcps; [unfold int32; lia|constructor; [exact I|constructor]].
  - reflexivity.
  - constructor; [split; lia|constructor].
  - unfold ipcps_size. cbn [a_ipcps ans_ipcps fold_right]. rewrite L1, L2. cbn. lia.
  - rewrite (irm_list_ipcps_breaks 1 i S I) in R by lia. discriminate R.
Qed.
(** An error of the daemon looks like an empty list. *)
Theorem irm_list_error_hidden : forall self r, int32 self -> int32 r -> spoken r ->
  whole (fun _ => ans_names r []) self ListNames = Returned (RetNames []) /\
  whole (fun _ => ans_ipcps r []) self ListIpcps = Returned (RetIpcps []).
Proof.
  intros self r S R Q. split.
  - apply (irm_list_names_partial (fun _ => ans_names r []) self S); [apply good_ans_names; [exact R|constructor]|exact Q|constructor|discriminate].
  - apply (irm_list_ipcps_partial (fun _ => ans_ipcps r []) self S); [apply good_ans_ipcps; [exact R|constructor]|exact Q|constructor|discriminate].
Qed.
Theorem irm_list_error_refuted : ~ (forall irmd self, int32 self -> good_ans (irmd DoListNames) -> (a_res (irmd DoListNames) < 0)%Z ->
  exists e, (e < 0)%Z /\ whole irmd self ListNames = Returned (Ret e)).
Proof.
  intros X. assert (S : int32 1) by (unfold int32; lia). assert (R : int32 (-12)) by (unfold int32; lia).
  destruct (X (fun _ => ans_names (-12) []) 1%Z S (good_ans_names _ _ R (Forall_nil _)) eq_refl) as (e & _ & E).
  assert (Q : spoken (-12)) by (split; discriminate). rewrite (proj1 (irm_list_error_hidden 1 _ S R Q)) in E. discriminate E.
Qed.

(** A long list is cut where the buffer of the caller ends; what comes after
    is lost without a word. *)
Lemma pack_names : forall l, pack (rlen 17 (map (fun x => pack (ni_fields x)) l)) = flat_map (fun x => put_field (17, WLen (pack (ni_fields x)))) l.
Proof. induction l as [|n l IH]; [reflexivity|]. cbn [map rlen flat_map]. rewrite pack_cons. unfold rlen in IH. rewrite IH. reflexivity. Qed.
Lemma names_reply : forall l r, pack (irm_fields (Irm 27 None None None None None [] None None None None None None [] l None None None None r)) =
  put_field (1, WVar 27) ++ flat_map (fun x => put_field (17, WLen (pack (ni_fields x)))) l ++ pack (onum 26 (option_map zz r)).
Proof.
  intros l r. unfold irm_fields. cbn [m_code m_prog m_pid m_name m_flow m_ipcp m_exec m_resp m_dst m_hash m_qos m_conf m_opts m_ipcps m_names m_timeo m_comp m_pk m_key m_result option_map].
  rewrite !pack_app. rewrite pack_names. rewrite pack_cons, pack_nil, app_nil_r. reflexivity.
Qed.
Theorem irm_list_names_short : forall self A B, int32 self -> Forall good_name (A ++ B) -> Forall (fun n => (length (nname n) <= 254)%nat) (A ++ B) ->
  N.of_nat (length (put_field (1, WVar 27) ++ flat_map (fun x => put_field (17, WLen (pack (ni_fields x)))) A)) = 10240 ->
  whole (fun _ => ans_names 0 (A ++ B)) self ListNames = Returned (RetNames A).
Proof.
  intros self A B S G L Z. destruct (send_list self ListNames (or_introl eq_refl)) as (l & H).
  pose proof (serve_list self ListNames l S (or_introl eq_refl) H) as V. cbv iota in V.
  unfold whole. rewrite H, V, finish_is. unfold respond.
  change (dflt 0%Z (m_result (reply DoListNames (ans_names 0 (A ++ B))))) with 0%Z. cbn [Z.eqb EPIPE EIRMD orb].
  change (reply DoListNames (ans_names 0 (A ++ B))) with (Irm 27 None None None None None [] None None None None None None [] (A ++ B) None None None None (Some 0%Z)).
  rewrite names_reply, flat_map_app. rewrite app_assoc, <- (app_assoc (put_field _)), app_assoc.
  assert (E : forall x y : list N, N.of_nat (length x) = 10240 -> receive (x ++ y) = x).
  { intros x y X. unfold receive, SOCK_BUF_SIZE. rewrite <- X, Nat2N.id, firstn_app, Nat.sub_diag, firstn_all, app_nil_r. reflexivity. }
  rewrite <- !app_assoc. rewrite (app_assoc (put_field (1, WVar 27))). rewrite E by exact Z.
  set (m := Irm 27 None None None None None [] None None None None None None [] A None None None None None).
  assert (P : put_field (1, WVar 27) ++ flat_map (fun x => put_field (17, WLen (pack (ni_fields x)))) A = pack (irm_fields m)).
  { unfold m. rewrite names_reply. cbn [option_map]. change (pack (onum 26 None)) with (@nil N). rewrite app_nil_r. reflexivity. }
  rewrite P in *. rewrite irm_rt.
  - cbn [after]. unfold m. cbn [m_names]. apply Forall_app in G, L. destruct G as (G & _), L as (L & _).
    assert (X : map list_name A = A); [|rewrite X; reflexivity].
    clear - G L. induction A as [|n t IH]; [reflexivity|]. inversion G; inversion L; subst. cbn [map].
    rewrite list_name_id, IH by assumption. reflexivity.
  - apply Forall_app in G. destruct G as (G & _).
    constructor; unfold m; cbn [m_code m_pid m_flow m_ipcp m_resp m_qos m_conf m_opts m_ipcps m_names m_timeo m_result]; try exact (each_none _ _).
    + reflexivity.
    + constructor.
    + eapply Forall_impl; [|exact G]. intros n (_ & X). exact X.
  - rewrite Z. discriminate.
Qed.
Lemma flat_repeat : forall A (f : A -> list N) x n, length (flat_map f (repeat x n)) = (n * length (f x))%nat.
Proof. intros A f x n. induction n; [reflexivity|]. cbn [repeat flat_map]. rewrite app_length, IHn. reflexivity. Qed.
Theorem irm_list_names_refuted : ~ (forall irmd self, int32 self -> good_ans (irmd DoListNames) -> a_res (irmd DoListNames) = 0%Z ->
  Forall (fun n => (length (nname n) <= 254)%nat) (a_names (irmd DoListNames)) ->
  whole irmd self ListNames = Returned (RetNames (a_names (irmd DoListNames)))).
Proof.
  intros X. set (x := Ni (repeat 97 93) 0). set (y := Ni (repeat 98 31) 0).
  assert (S : int32 1) by (unfold int32; lia).
  set (A := repeat x 102 ++ [y]). set (B := [y]).
  assert (Gx : good_name x) by (split; [apply bytes_long; lia|reflexivity]).
  assert (Gy : good_name y) by (split; [apply bytes_long; lia|reflexivity]).
  assert (G : Forall good_name (A ++ B)).
  { apply Forall_app. split; [apply Forall_app; split; [|constructor; [exact Gy|constructor]]|constructor; [exact Gy|constructor]].
    apply Forall_forall. intros n I. apply repeat_spec in I. subst n. exact Gx. }
  assert (L : Forall (fun n => (length (nname n) <= 254)%nat) (A ++ B)).
  { assert (Lx : (length (nname x) <= 254)%nat) by (cbn; lia). assert (Ly : (length (nname y) <= 254)%nat) by (cbn; lia).
    apply Forall_app. split; [apply Forall_app; split; [|constructor; [exact Ly|constructor]]|constructor; [exact Ly|constructor]].
    apply Forall_forall. intros n I. apply repeat_spec in I. subst n. exact Lx. }
  assert (Z : N.of_nat (length (put_field (1, WVar 27) ++ flat_map (fun x => put_field (17, WLen (pack (ni_fields x)))) A)) = 10240).
  { assert (Zx : length (put_field (17, WLen (pack (ni_fields x)))) = 100%nat) by (vm_compute; reflexivity).
    assert (Zy : length (put_field (17, WLen (pack (ni_fields y)))) = 38%nat) by (vm_compute; reflexivity).
    assert (Z1 : length (put_field (1, WVar 27)) = 2%nat) by (vm_compute; reflexivity).
    unfold A. rewrite flat_map_app, !app_length, flat_repeat, Zx, Z1. cbn [flat_map]. rewrite app_nil_r, Zy. reflexivity. }
  clearbody A. pose proof (irm_list_names_short 1 A B S G L Z) as W.
  pose proof (X (fun _ => ans_names 0 (A ++ B)) 1%Z S) as W2. cbn beta in W2.
  rewrite W in W2. assert (C : A = A ++ B).
  { assert (Q : Returned (RetNames A) = Returned (RetNames (A ++ B))); [|exact (f_equal (fun d => match d with Returned (RetNames l) => l | _ => [] end) Q)].
    apply W2; [apply good_ans_names; [unfold int32; lia|exact G]|reflexivity|exact L]. }
  apply (f_equal (@length _)) in C. rewrite app_length in C. cbn [B length] in C. lia.
Qed.

(** ** What ends the daemon *)
Lemma leb_ub : forall A (n : str) (x : A), (if Nat.leb (length n) 255 then Ok x else UB) = UB <-> (255 < length n)%nat.
Proof. intros A n x. destruct (Nat.leb_spec (length n) 255); split; intros H'; try discriminate H'; try lia; reflexivity. Qed.
Lemma ii_ub : forall i (f : ipcpi -> cmd), bind (ii_msg_to_s i) (fun i => Ok (f i)) = UB <-> long (mi_name i).
Proof.
  intros i f. unfold ii_msg_to_s, long. destruct (Nat.leb_spec (length (cstr (mi_name i))) 255); cbn [bind]; split; intros H'; try discriminate H'; try lia; reflexivity.
Qed.
(** A message ends the IRMd if a part that its code asks for is missing, a
    name does not fit 256 bytes, or flow_join comes with data, and in no
    other case. *)
Theorem irm_daemon_crash : forall l m, irm_unpack l = Some m -> (serve l = UB <-> breaks m).
Proof.
  intros l m U. unfold serve. rewrite U. unfold dispatch, breaks, with_flow.
  destruct (m_code m) as [|p]; [split; intros X; [discriminate X|elim X]|].
  do 5 (try destruct p as [p|p|]).
  all: try (split; intros X; [discriminate X|elim X]; fail).
  all: try (destruct (m_flow m); split; intros X; try discriminate X; reflexivity).
  all: try (destruct (m_ipcp m); [apply ii_ub|split; intros; [exact I|reflexivity]]; fail).
  all: try (destruct (m_qos m); split; intros X; try discriminate X; reflexivity).
  all: try (destruct (m_exec m); split; intros X; try discriminate X; reflexivity).
  all: try (destruct (m_prog m); [apply leb_ub|split; intros; [exact I|reflexivity]]; fail).
  all: try (destruct (m_names m); [split; intros; [exact I|reflexivity]|apply leb_ub]; fail).
  - destruct (m_flow m), (m_timeo m); cbn [option_map]; split; intros X; try discriminate X; try reflexivity; try (left; reflexivity); try (right; reflexivity);
      destruct X as [X|X]; discriminate X.
  - destruct (m_conf m) as [c|]; [|split; intros; [exact I|reflexivity]].
    rewrite <- conf_ub. destruct (conf_msg_to_s c) as [x| |] eqn:E; cbn [bind]; split; intros X; try discriminate X; try reflexivity; elim (conf_not_err c E).
  - destruct (m_flow m), (m_pk m) as [[|]|]; cbn [dflt]; split; intros X; try discriminate X; try reflexivity; try (left; reflexivity); try (right; exact I);
      destruct X as [X|X]; try discriminate X; elim X.
Qed.

(** A name of more than 255 characters, given to irm_create_name or by a
    program that announces itself, ends the IRMd. *)
Theorem irm_long_name_crash : forall irmd self c l, int32 self -> good_call c -> (255 < length (copied c))%nat ->
  send self c = Send l -> whole irmd self c = Crashed true.
Proof.
  intros irmd self c l S G C H. destruct (sent_is _ _ _ S G H) as (m & R & U). unfold whole. rewrite H.
  assert (B : breaks m).
  { destruct c; cbn [copied] in C; try (cbn [length] in C; lia).
    - destruct name as [n|]; [|cbn [length] in C; lia]. cbn [request] in R. injection R as <-. cbn [breaks m_code m_names]. unfold long. cbn [nname].
      destruct G as (G & _). rewrite cstr_id by exact G. exact C.
    - cbn [request] in R. injection R as <-. unfold breaks, m_args, empty. cbn [m_code m_prog]. unfold long. rewrite cstr_id by exact G. exact C. }
  apply (irm_daemon_crash _ _ U) in B. rewrite B. reflexivity.
Qed.
Theorem irm_daemon_lives_refuted : ~ (forall irmd self c, int32 self -> good_call c -> whole irmd self c <> Crashed true).
Proof.
  intros X. set (s := repeat 97 256). assert (T : txt s) by (apply bytes_long; lia). assert (L : length s = 256%nat) by reflexivity. clearbody s.
  set (c := CreateName (Some s) 0). assert (S : int32 1) by (unfold int32; lia). assert (G : good_call c) by (split; [exact T|reflexivity]).
  destruct (irm_sent 1 c G (fun x => x)) as (l & H); [unfold c; cbn [args_size osize]; rewrite L; discriminate|].
  apply (X (fun _ => ans_names 0 []) 1%Z c S G), (irm_long_name_crash _ _ _ l S G); [unfold c; cbn [copied]; lia|exact H].
Qed.

(** ** Concrete cases *)
(* two programs bound with arguments, a flow asked for with a QoS and a
   timeout: what is sent arrives *)
Example ex_arrives : exists l k, send 42 (BindProgram [47; 97] (Some [110]) 1 [[45; 118]; [120]]) = Send l /\ serve l = Ok k /\
  k = DoBindProgram [[47; 97]; [45; 118]; [120]] (Some [110]) 1.
Proof. eexists. eexists. split; [reflexivity|]. split; vm_compute; reflexivity. Qed.
Example ex_alloc : exists l k, send 42 (FlowAlloc [110] (Some (Qos 1 2 3 4 5 6 7 8 9)) (Some (1, 500)%Z)) = Send l /\ serve l = Ok k /\
  k = DoAlloc (Fi 0 42 0 0 0 (Qos 1 2 3 4 1 6 7 8 9)) (Some [110]) [] (Some (1, 500)%Z).
Proof. eexists. eexists. split; [reflexivity|]. split; vm_compute; reflexivity. Qed.
(* an encrypted flow comes back with its key; a timeout without a timeout is
   told as a plain error *)
Definition ex_flow : ans := Ans 0 (Fi 7 42 99 60000 3 (Qos 1 2 3 4 5 6 7 256 9)) [11; 22] [] [].
Example ex_flow_back : whole (fun _ => ex_flow) 42 (FlowAlloc [110] None None) = Returned (RetFlow (a_flow ex_flow) (Some [11; 22])).
Proof. vm_compute. reflexivity. Qed.
Example ex_timeout : whole (fun _ => ans_names (-110) []) 42 (FlowAlloc [110] None None) = Returned (Ret (-1)) /\
  whole (fun _ => ans_names (-110) []) 42 (FlowAlloc [110] None (Some (1, 0)%Z)) = Returned (Ret (-110)).
Proof. split; vm_compute; reflexivity. Qed.
Example ex_silent : whole (fun _ => ans_names (-32) []) 42 (DestroyName (Some [97])) = Returned (Ret (-1002)).
Proof. vm_compute. reflexivity. Qed.
Example ex_list : whole (fun _ => ans_names 0 [Ni [97] 1; Ni [98; 99] 0]) 42 ListNames = Returned (RetNames [Ni [97] 1; Ni [98; 99] 0]).
Proof. vm_compute. reflexivity. Qed.
(* a message a peer program could write by itself *)
Example ex_crash : serve (pack (irm_fields (Irm 9 None None None None None [] None None None None None None [] [] None None None None None))) = UB.
Proof. vm_compute. reflexivity. Qed.

Print Assumptions irm_request_arrives_partial.
Print Assumptions irm_join_is_alloc.
Print Assumptions irm_join_arrives_refuted.
Print Assumptions irm_options_refuted.
Print Assumptions irm_refused.
Print Assumptions irm_sent.
Print Assumptions irm_long_argument_breaks.
Print Assumptions irm_no_overflow_refuted.
Print Assumptions irm_dev_too_long.
Print Assumptions irm_dev_no_overflow.
Print Assumptions irm_buffers_kept_partial.
Print Assumptions irm_buffers_freed.
Print Assumptions irm_buffers_kept_refuted.
Print Assumptions irm_result.
Print Assumptions irm_flow_result.
Print Assumptions irm_req_arr_result.
Print Assumptions irm_list_names_partial.
Print Assumptions irm_list_ipcps_partial.
Print Assumptions irm_list_names_cut.
Print Assumptions irm_list_ipcps_breaks.
Print Assumptions irm_list_ipcps_refuted.
Print Assumptions irm_list_error_hidden.
Print Assumptions irm_list_error_refuted.
Print Assumptions irm_list_names_short.
Print Assumptions irm_list_names_refuted.
Print Assumptions irm_daemon_crash.
Print Assumptions irm_long_name_crash.
Print Assumptions irm_daemon_lives_refuted.
