(** C110: how the IRMd makes a flow. *)
From Coq Require Import List Arith Bool Lia.
From Verif Require Import IrmFlowModel IrmFlowSpec.
Import ListNotations.

(** Every run is one of the finitely many paths through the tree. *)
Fixpoint paths (p : prog) : list (list ev * option result) :=
  match p with
  | Ret r => [([], Some r)]
  | Abort => [([], None)]
  | Do e p => map (fun x => (e :: fst x, snd x)) (paths p)
  | Ask n k => flat_map (fun i => paths (k i)) (seq 0 (S (n - 1)))
  end.
Lemma run_paths : forall p ans, In (run p ans) (paths p).
Proof.
  induction p as [r|n k IH|e p IH|]; intro ans; cbn [run paths].
  - left. reflexivity.
  - apply in_flat_map. destruct ans as [|a t].
    + exists (n - 1). split; [apply in_seq; lia|apply IH].
    + exists (if a <? n then a else n - 1). split; [|apply IH].
      apply in_seq. destruct (Nat.ltb_spec a n); lia.
  - specialize (IH ans). destruct (run p ans) as [es r]. apply in_map_iff. exists (es, r). split; [reflexivity|exact IH].
  - left. reflexivity.
Qed.

(** ** Accepting a flow *)
(** With success there is the flow, the key is given if and only if one was asked for, all
    else is released, and the IPCP was sent one good answer, with the public key if and
    only if one was asked for.  With an error nothing is left and no key is given, except
    when the IPCP cannot be sent the answer; the IPCP is sent a refusal if a request with
    a key of the other side came, and nothing if not. *)
Theorem accept_partial : forall crypto ans, exists h r, ends (flow_accept crypto) [] ans h r /\
  match code r with
  | None => h = (if crypto then [Flow; Sym] else [Flow]) /\ key r = crypto /\
            responses (fst (run (flow_accept crypto) ans)) = [(true, crypto)]
  | Some EIPCP => responses (fst (run (flow_accept crypto) ans)) = [(true, crypto)] /\ h = (if crypto then [Sym] else [])
  | Some e => h = [] /\ key r = false /\
      (~ In (Got Rpk) (fst (run (flow_accept crypto) ans)) /\ responses (fst (run (flow_accept crypto) ans)) = [] \/
       In (Got Rpk) (fst (run (flow_accept crypto) ans)) /\ e = ECRYPT /\
       responses (fst (run (flow_accept crypto) ans)) = [(false, false)])
  end.
Proof.
  intros crypto ans.
  assert (P := run_paths (flow_accept crypto) ans).
  unfold ends. destruct (run (flow_accept crypto) ans) as [es r]. cbn [fst snd].
  destruct crypto; cbn in P.
  - repeat (destruct P as [P|P]; [injection P as <- <-; eexists; eexists; split; [split; reflexivity|]; cbn; intuition congruence|]). destruct P.
  - repeat (destruct P as [P|P]; [injection P as <- <-; eexists; eexists; split; [split; reflexivity|]; cbn; intuition congruence|]). destruct P.
Qed.
Print Assumptions accept_partial.

(** The key that was derived stays allocated then: it is in *data, which the caller reads
    only with success (main.c:1431-1437). *)
Theorem accept_key_refuted : exists ans r, ends (flow_accept true) [] ans [Sym] r /\ code r = Some EIPCP /\ key r = true.
Proof. exists [1; 1; 1; 1; 1; 2; 1; 0]. eexists. split; [split; reflexivity|split; reflexivity]. Qed.
Print Assumptions accept_key_refuted.

Example accept_met : exists r, ends (flow_accept true) [] [1; 1; 1; 1; 1; 2; 1; 1] [Flow; Sym] r /\ code r = None.
Proof. eexists. split; [split; reflexivity|reflexivity]. Qed.

(** ** Allocating a flow *)
Theorem alloc_partial : forall crypto more ans,
  snd (run (flow_alloc crypto more) ans) = None \/
  exists h r, ends (flow_alloc crypto more) [] ans h r /\
  match code r with
  | None => h = (if crypto then [Flow; Sym] else if more then [Rpk; Flow] else [Flow]) /\ key r = crypto /\
            asked (fst (run (flow_alloc crypto more) ans)) = [crypto]
  | Some e => h = [] /\ key r = false /\
              (asked (fst (run (flow_alloc crypto more) ans)) = [crypto] -> e = ENOTALLOC \/ e = ETIMEDOUT \/ e = EPIPE \/ e = ECRYPT) /\
              (e = EBADF \/ e = ENOMEM \/ e = EIPCP -> asked (fst (run (flow_alloc crypto more) ans)) = [])
  end.
Proof.
  intros crypto more ans.
  assert (P := run_paths (flow_alloc crypto more) ans).
  unfold ends. destruct (run (flow_alloc crypto more) ans) as [es r]. cbn [fst snd].
  destruct crypto, more; cbn in P;
  (repeat (destruct P as [P|P]; [injection P as <- <-; first [left; reflexivity | right; eexists; eexists; split; [split; reflexivity|]; cbn; intuition congruence]|])); destruct P.
Qed.
Print Assumptions alloc_partial.

(** Data that the other side sent without a key being asked for is never freed. *)
Theorem alloc_data_refuted : exists ans h r, ends (flow_alloc false true) [] ans h r /\ code r = None /\ In Rpk h.
Proof. exists []. eexists. eexists. split; [split; reflexivity|split; [reflexivity|left; reflexivity]]. Qed.
Print Assumptions alloc_data_refuted.
(** The buffers cannot be made: an assert fails. *)
Theorem alloc_buffers_refuted : forall crypto more, exists ans, snd (run (flow_alloc crypto more) ans) = None.
Proof. intros [] more; [exists [1; 1; 1; 1; 0; 1]|exists [1; 1; 0; 1]]; destruct more; reflexivity. Qed.
Print Assumptions alloc_buffers_refuted.
(** An error after the IPCP agreed: it keeps the flow, no one tells it. *)
Theorem alloc_ipcp_refuted : exists ans r, ends (flow_alloc true false) [] ans [] r /\ code r = Some ECRYPT /\
  fst (run (flow_alloc true false) ans) =
    [Got Sym; Got Pkp; Got Flow; Got Hash; AskIpcp true; Got Rpk; Gone Rpk; Gone Hash; Gone Flow; Gone Pkp; Gone Sym].
Proof. exists [1; 1; 1; 1; 1; 1; 2; 0]. eexists. split; [split; reflexivity|split; reflexivity]. Qed.
Print Assumptions alloc_ipcp_refuted.

Example alloc_met : exists r, ends (flow_alloc true false) [] [] [Flow; Sym] r /\ code r = None.
Proof. eexists. split; [split; reflexivity|reflexivity]. Qed.

(** ** The IPCP for a destination *)
Lemma get_done : forall l f, f_err f = None -> fold_left get_step l f = f.
Proof.
  induction l as [|x l IH]; intros f E; cbn [fold_left]; [reflexivity|].
  assert (S : get_step f x = f) by (unfold get_step; rewrite E; destruct (broadcast x); reflexivity).
  rewrite S. apply IH. exact E.
Qed.
Lemma get_from : forall l f, f_err f <> None ->
  let g := fold_left get_step l f in
  match find (fun x => usable x && knows x) l with
  | Some x => f_err g = None /\ f_pid g = ipid x /\ f_hashes g = S (f_hashes f)
  | None => f_err g <> None /\ f_hashes g = f_hashes f /\
            (f_err g = (if existsb (fun x => negb (broadcast x) && enrolled x && negb (mem_ok x)) l then Some ENOMEM else f_err f)) /\
            f_asked g = f_asked f ++ map ipid (filter usable l)
  end.
Proof.
  induction l as [|x l IH]; intros f E; cbv zeta; cbn [fold_left find existsb filter].
  - split; [exact E|]. split; [reflexivity|]. split; [reflexivity|]. cbn. rewrite app_nil_r. reflexivity.
  - destruct (f_err f) as [e|] eqn:F; [clear E|contradiction].
    assert (S : get_step f x =
      if broadcast x || negb (enrolled x) then f
      else if negb (mem_ok x) then Found (Some ENOMEM) (f_pid f) (f_hashes f) (f_asked f)
      else if negb (knows x) then Found (f_err f) (f_pid f) (f_hashes f) (f_asked f ++ [ipid x])
      else Found None (ipid x) (S (f_hashes f)) (f_asked f ++ [ipid x])).
    { unfold get_step. rewrite F. destruct (broadcast x), (enrolled x); reflexivity. }
    rewrite S. unfold usable at 1 3.
    destruct (broadcast x) eqn:B; cbn [negb andb orb].
    { specialize (IH f). rewrite F in IH. apply IH. discriminate. }
    destruct (enrolled x) eqn:EN; cbn [negb andb orb].
    2:{ specialize (IH f). rewrite F in IH. apply IH. discriminate. }
    destruct (mem_ok x) eqn:M; cbn [negb andb orb].
    2:{ specialize (IH (Found (Some ENOMEM) (f_pid f) (f_hashes f) (f_asked f))). cbn [f_err f_hashes f_asked] in IH.
        specialize (IH ltac:(discriminate)). cbv zeta in IH.
        destruct (find (fun x0 => usable x0 && knows x0) l); [exact IH|].
        destruct IH as [I1 [I2 [I3 I4]]]. split; [exact I1|]. split; [exact I2|]. split; [|exact I4].
        rewrite I3. destruct (existsb _ l); reflexivity. }
    destruct (knows x) eqn:K; cbn [negb].
    + rewrite get_done by reflexivity. cbn. split; [reflexivity|split; reflexivity].
    + specialize (IH (Found (f_err f) (f_pid f) (f_hashes f) (f_asked f ++ [ipid x]))). cbn [f_err f_hashes f_asked] in IH.
      rewrite F in IH. specialize (IH ltac:(discriminate)). cbv zeta in IH. rewrite F.
      destruct (find (fun x0 => usable x0 && knows x0) l); [exact IH|].
      destruct IH as [I1 [I2 [I3 I4]]]. split; [exact I1|]. split; [exact I2|]. split; [exact I3|].
      rewrite I4, <- app_assoc. reflexivity.
Qed.

(** The first IPCP, in the order of the registry, that can be asked and knows the name is
    taken, with one hash allocated; if there is none, all that can be asked were asked, no
    hash is left, and the error says whether memory ran out. *)
Theorem destination_first : forall l,
  let g := get_ipcp_by_dst l in
  match find (fun x => usable x && knows x) l with
  | Some x => f_err g = None /\ f_pid g = ipid x /\ f_hashes g = 1
  | None => f_hashes g = 0 /\
            f_err g = (if existsb (fun x => negb (broadcast x) && enrolled x && negb (mem_ok x)) l then Some ENOMEM else Some EIPCP) /\
            f_asked g = map ipid (filter usable l)
  end.
Proof.
  intro l. pose proof (get_from l (Found (Some EIPCP) 0 0 [])) as H. cbn [f_err f_hashes f_asked] in H.
  specialize (H ltac:(discriminate)). cbv zeta in *. fold (get_ipcp_by_dst l) in H.
  destruct (find (fun x => usable x && knows x) l); [exact H|]. destruct H as [_ [H1 [H2 H3]]].
  split; [exact H1|split; [exact H2|exact H3]].
Qed.
Print Assumptions destination_first.

(** Only IPCPs that may be asked are asked, none after the one that knows. *)
Theorem destination_asked : forall l x, In x (f_asked (get_ipcp_by_dst l)) ->
  exists y, In y l /\ usable y = true /\ ipid y = x.
Proof.
  intros l x. unfold get_ipcp_by_dst.
  assert (G : forall l f, In x (f_asked (fold_left get_step l f)) ->
    In x (f_asked f) \/ exists y, In y l /\ usable y = true /\ ipid y = x).
  { clear. induction l as [|y l IH]; intros f H; cbn [fold_left] in H; [left; exact H|].
    destruct (IH _ H) as [A|[z [Z1 Z2]]]; [|right; exists z; split; [right; exact Z1|exact Z2]].
    unfold get_step in A. destruct (broadcast y) eqn:B; [left; exact A|].
    destruct (f_err f) as [e|]; [|left; exact A]. destruct (enrolled y) eqn:E; cbn [negb] in A; [|left; exact A].
    destruct (mem_ok y) eqn:M; cbn [negb] in A; [|left; exact A].
    assert (U : usable y = true) by (unfold usable; rewrite B, E, M; reflexivity).
    destruct (knows y); cbn [negb f_asked] in A; apply in_app_or in A; (destruct A as [A|[A|[]]]; [left; exact A|]);
      right; exists y; (split; [left; reflexivity|split; [exact U|exact A]]). }
  intro H. destruct (G l _ H) as [[]|R]. exact R.
Qed.
Print Assumptions destination_asked.

Example destination_met : get_ipcp_by_dst [Ipcp true true 1 true true; Ipcp false true 2 true false; Ipcp false true 3 true true; Ipcp false true 4 true true]
  = Found None 3 1 [2; 3].
Proof. reflexivity. Qed.

(** ** Joining a layer *)
(** False: no request to join ever succeeds; where the layer is there, an assert fails. *)
Theorem join_refuted : forall n1 ans,
  (forall r, snd (run (flow_join n1) ans) = Some r -> code r <> None) /\
  snd (run (flow_join n1) []) = None.
Proof.
  intros n1 ans. unfold flow_join. destruct (n1 =? 0) eqn:N; cbn [negb].
  - split; [|cbn; reflexivity].
    intros r E. match type of E with snd (run ?p ans) = _ => assert (P := run_paths p ans); destruct (run p ans) as [es q] end.
    cbn [snd] in E. subst q. cbn in P.
    repeat (destruct P as [P|P]; [first [discriminate P | injection P as <- <-; cbn; discriminate]|]). destruct P.
  - split; [cbn; discriminate|reflexivity].
Qed.
Print Assumptions join_refuted.
(** The errors leave nothing behind. *)
Theorem join_partial : forall ans r, snd (run (flow_join 0) ans) = Some r -> held [] (fst (run (flow_join 0) ans)) = Some [].
Proof.
  intros ans r E. assert (P := run_paths (flow_join 0) ans). destruct (run (flow_join 0) ans) as [es q].
  cbn [fst snd] in *. subst q. cbn in P.
  repeat (destruct P as [P|P]; [first [discriminate P | injection P as <- <-; reflexivity]|]). destruct P.
Qed.
Print Assumptions join_partial.

(** ** A request arrives *)
(** The command to start is always freed and at most one program is started, only after a
    wait; with a key, success passes the data on. *)
Theorem req_arr_partial : forall crypto ans, exists h r, ends (flow_req_arr crypto) [Rpk] ans h r /\
  has Exec h = false /\ spawns (fst (run (flow_req_arr crypto) ans)) <= 1 /\
  (crypto = true -> code r = None -> h = []).
Proof.
  intros crypto ans. assert (P := run_paths (flow_req_arr crypto) ans). unfold ends.
  destruct (run (flow_req_arr crypto) ans) as [es r]. cbn [fst snd]. destruct crypto; cbn in P;
  (repeat (destruct P as [P|P]; [injection P as <- <-; eexists; eexists; split; [split; reflexivity|]; cbn; intuition (try discriminate; try lia)|])); destruct P.
Qed.
Print Assumptions req_arr_partial.
(** The data of a request stays allocated when no one accepts, and when no key is asked for. *)
Theorem req_arr_data_refuted :
  (exists ans r, ends (flow_req_arr true) [Rpk] ans [Rpk] r /\ code r = Some EOTHER) /\
  (forall ans h r, ends (flow_req_arr false) [Rpk] ans h r -> h = [Rpk]).
Proof.
  split.
  - exists [1; 1]. eexists. split; [split; reflexivity|reflexivity].
  - intros ans h r [A B]. assert (P := run_paths (flow_req_arr false) ans). destruct (run (flow_req_arr false) ans) as [es q].
    cbn [fst snd] in *. subst q. cbn in P.
    repeat (destruct P as [P|P]; [injection P as <- <-; injection A as <-; reflexivity|]). destruct P.
Qed.
Print Assumptions req_arr_data_refuted.

(** A reply to an allocation: its data goes to the flow, if there is one. *)
Theorem reply_partial : forall refused data ans, refused && data = false ->
  exists h r, ends (flow_alloc_reply refused data) (if data then [Rpk] else []) ans h r /\ (code r = None -> h = []) /\
    (code r <> None -> code r = Some EBADF).
Proof.
  intros refused data ans N. assert (P := run_paths (flow_alloc_reply refused data) ans). unfold ends.
  destruct (run (flow_alloc_reply refused data) ans) as [es r]. cbn [fst snd].
  destruct refused, data; try discriminate; cbn in P;
  (repeat (destruct P as [P|P]; [injection P as <- <-; eexists; eexists; split; [split; reflexivity|]; cbn; intuition (try discriminate; try congruence)|])); destruct P.
Qed.
Print Assumptions reply_partial.
(** It stays allocated if the flow is gone; a refusal with data fails an assert. *)
Theorem reply_data_refuted : (exists ans r, ends (flow_alloc_reply false true) [Rpk] ans [Rpk] r /\ code r = Some EBADF) /\
  forall ans, snd (run (flow_alloc_reply true true) ans) = None.
Proof. split; [exists [0]; eexists; split; [split; reflexivity|reflexivity]|reflexivity]. Qed.
Print Assumptions reply_data_refuted.

Example req_arr_met : exists r, ends (flow_req_arr true) [Rpk] [1; 0; 1; 1; 2; 1; 1] [] r /\ code r = None.
Proof. eexists. split; [split; reflexivity|reflexivity]. Qed.
