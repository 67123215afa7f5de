(** Proofs about the registry: flows. *)

From Coq Require Import List NArith ZArith Bool String Lia Permutation.
From Coq Require Import ZifyBool ZifyNat ZifyN.
From Verif Require Import BitmapModel BitmapSpec BitmapProps RegModel RegSpec.
Import ListNotations.
Open Scope Z_scope.

(** ** Lists *)

Lemma list_ins_perm {A} gt (x : A) l : Permutation (list_ins gt x l) (x :: l).
Proof.
  unfold list_ins. destruct (ins_behind gt x l) as [l'|] eqn:E; [|apply Permutation_refl].
  revert l' E. induction l as [|y t IH]; intros l' E; cbn in E; [discriminate|].
  destruct (gt y).
  - injection E as <-. apply perm_swap.
  - destruct (ins_behind gt x t) as [t'|] eqn:Et; cbn in E; [|discriminate].
    injection E as <-. specialize (IH t' eq_refl).
    eapply Permutation_trans; [apply perm_skip, IH|]. apply perm_swap.
Qed.

Lemma in_list_ins {A} gt (x y : A) l : In y (list_ins gt x l) <-> y = x \/ In y l.
Proof.
  split; intros H.
  - apply (Permutation_in _ (list_ins_perm gt x l)) in H. destruct H; auto.
  - apply (Permutation_in _ (Permutation_sym (list_ins_perm gt x l))).
    destruct H; [left|right]; auto.
Qed.

Lemma in_upd_first {A} p (g : A -> A) l y :
  In y (upd_first p g l) -> In y l \/ exists x, In x l /\ p x = true /\ y = g x.
Proof.
  induction l as [|x t IH]; cbn; [tauto|].
  destruct (p x) eqn:E; cbn; intros [H|H].
  - right. exists x. auto.
  - auto.
  - auto.
  - destruct (IH H) as [H'|(z & H1 & H2 & H3)]; [auto|]. right. exists z. auto.
Qed.

Lemma in_del_first {A} p (l : list A) y : In y (del_first p l) -> In y l.
Proof.
  induction l as [|x t IH]; cbn; [tauto|]. destruct (p x); cbn; tauto.
Qed.

Lemma find_upd_same {A} p (x : A) l : find p l = Some x ->
  forall R : A -> A -> Prop, (forall z, R z z) -> forall g, R x (g x) ->
  Forall2 R l (upd_first p g l).
Proof.
  intros E R Rr g Rx. induction l as [|y t IH]; cbn in *; [discriminate|].
  destruct (p y) eqn:Ep.
  - injection E as ->. constructor; auto.
    clear - Rr. induction t; constructor; auto.
  - constructor; auto.
Qed.

Lemma get_flow_some r id f : get_flow r id = Some f ->
  In f (r_flows r) /\ f_id f = id.
Proof.
  intros E. apply find_some in E. destruct E as [H1 H2]. split; [exact H1|].
  unfold has_id in H2. lia.
Qed.

Lemma get_flow_none r id : get_flow r id = None -> ~ In id (ids r).
Proof.
  intros E H. apply in_map_iff in H. destruct H as (f & <- & H).
  pose proof (find_none _ _ E f H) as H2. unfold has_id in H2. lia.
Qed.

(** ** How one operation changes the flows *)

Section Change.
Variable R : rflow -> rflow -> Prop.
Hypothesis Rrefl : forall f, R f f.

Lemma put_change r id f f' : get_flow r id = Some f -> f_id f' = id -> R f f' ->
  Forall2 R (r_flows r) (r_flows (put_flow f' r)).
Proof.
  intros E Ei Rf. unfold put_flow. cbn [set_flows r_flows]. rewrite Ei.
  apply (find_upd_same _ f); auto.
Qed.

Lemma refl_change l : Forall2 R l l.
Proof. induction l; constructor; auto. Qed.
End Change.

(** The relation between a flow before and after an operation. *)
Definition same_flow (f f' : rflow) : Prop := f_id f = f_id f' /\ f_tag f = f_tag f'.

Definition flow_moves (e : ev) (f f' : rflow) : Prop :=
  same_flow f f' /\
  (f_st f' = f_st f \/ life (f_st f) (f_st f') \/
   (times_out e (f_tag f) /\ f_st f' = FDeallocated)).

Lemma flow_moves_refl e f : flow_moves e f f.
Proof. split; [split; reflexivity|auto]. Qed.

Ltac break :=
  repeat match goal with
  | H : assert ?c _ = Ok _ |- _ =>
      unfold assert in H at 1; destruct c eqn:?; [|discriminate H]
  | H : Abort = Ok _ |- _ => discriminate H
  | H : Ok _ = Ok _ |- _ => injection H as H
  | H : (_, _) = (_, _) |- _ => injection H as H
  end.

Lemma destroy_rbuffs_ok f f' : destroy_rbuffs f = Ok f' ->
  f_info f' = f_info f /\ f_tag f' = f_tag f /\ f_data f' = f_data f.
Proof.
  unfold destroy_rbuffs. destruct (f_nrb f), (f_n1rb f); intros E; try discriminate E;
    injection E as <-; auto.
Qed.

Lemma create_rbuffs_ok f i rb f' b : create_rbuffs f i rb = Ok (f', b) ->
  f_id f' = f_id f /\ f_tag f' = f_tag f /\ f_st f' = f_st f /\ f_npid f' = f_npid f
  /\ f_data f' = f_data f.
Proof.
  unfold create_rbuffs. intros E. destruct rb.
  - break. inversion E; subst. repeat split.
  - inversion E; subst. repeat split.
  - break. inversion E; subst. repeat split.
Qed.

Lemma fstate_eqb_eq a b : fstate_eqb a b = true -> a = b.
Proof. destruct a, b; cbn; congruence. Qed.

Lemma fstate_eqb_refl a : fstate_eqb a a = true.
Proof. destruct a; reflexivity. Qed.

(** reg_flow_update: identity is kept and the state moves as asked or, when
    the buffers cannot be created, not at all. *)
Lemma flow_update_ok f i rb f' i' z : flow_update f i rb = Ok (f', i', z) ->
  f_id f' = f_id f /\ f_tag f' = f_tag f /\ f_data f' = f_data f /\ f_id f = i_id i /\
  ((z = 0 /\ f_st f' = i_state i) \/ (z = - ENOMEM /\ f_st f' = f_st f)) /\
  match i_state i with
  | FAcceptPending => f_st f = FInit /\ z = 0
  | FAllocPending => f_st f = FInit
  | FAllocated => f_st f = FAllocPending \/ f_st f = FAcceptPending
  | FDeallocated | FDeallocPending => z = 0
  | _ => False
  end.
Proof.
  unfold flow_update. intros E. break.
  assert (Hid : f_id f = i_id i) by (unfold f_id; lia).
  destruct (i_state i) eqn:Es; try discriminate E.
  - (* AllocPending *) break.
    destruct (create_rbuffs f i rb) as [[g b]|] eqn:Ec; [|discriminate E].
    apply create_rbuffs_ok in Ec. destruct Ec as (C1 & C2 & C3 & C4 & C5).
    destruct b; inversion E; subst.
    + unfold upd_done in E. inversion E; subst.
      repeat split; auto. apply fstate_eqb_eq. auto.
    + repeat split; auto. apply fstate_eqb_eq. auto.
  - (* AcceptPending *) break. unfold upd_done in E. inversion E; subst.
    repeat split; auto. apply fstate_eqb_eq. auto.
  - (* Allocated *) break.
    set (g0 := set_info (set_mpl (i_mpl i) (f_info f)) f) in E.
    assert (G0 : f_id g0 = f_id f /\ f_tag g0 = f_tag f /\ f_data g0 = f_data f /\ f_st g0 = f_st f)
      by (repeat split).
    destruct G0 as (G1 & G2 & G3 & G4).
    assert (Hst : f_st f = FAllocPending \/ f_st f = FAcceptPending).
    { match goal with H : (_ || _) = true |- _ => apply orb_true_iff in H; destruct H as [H|H];
        apply fstate_eqb_eq in H; auto end. }
    cbv zeta in E. destruct (fstate_eqb (f_st g0) FAllocPending) eqn:Eq.
    + unfold upd_done in E. inversion E; subst. repeat split; auto.
    + match type of E with match create_rbuffs ?a _ _ with _ => _ end = _ =>
        set (g1 := a) in E end.
      assert (K : f_id g1 = f_id f /\ f_tag g1 = f_tag f /\ f_data g1 = f_data f /\ f_st g1 = f_st f)
        by (repeat split).
      destruct K as (K1 & K2 & K3 & K4).
      destruct (create_rbuffs g1 i rb) as [[g b]|] eqn:Ec; [|discriminate E].
      apply create_rbuffs_ok in Ec. destruct Ec as (C1 & C2 & C3 & C4 & C5).
      destruct b.
      * unfold upd_done in E. inversion E; subst. split; [exact (eq_trans C1 K1)|].
        split; [exact (eq_trans C2 K2)|]. split; [exact (eq_trans C5 K3)|]. split; [auto|].
        split; [left; split; reflexivity|auto].
      * inversion E; subst. split; [exact (eq_trans C1 K1)|]. split; [exact (eq_trans C2 K2)|].
        split; [exact (eq_trans C5 K3)|].
        split; [auto|]. split; [right; split; [reflexivity|exact (eq_trans C3 K4)]|auto].
  - (* DeallocPending *) unfold upd_done in E. inversion E; subst. repeat split; auto.
  - (* Deallocated *)
    destruct (destroy_rbuffs f) as [g|] eqn:Ed; [|discriminate E].
    apply destroy_rbuffs_ok in Ed. destruct Ed as (D1 & D2 & D3).
    unfold upd_done in E. inversion E; subst.
    unfold f_id, f_st in *. cbn. rewrite D1. repeat split; auto.
Qed.

Lemma upd_upd {A} p (a b : A) l : p a = true ->
  upd_first p (fun _ => b) (upd_first p (fun _ => a) l) = upd_first p (fun _ => b) l.
Proof.
  intros Ha. induction l as [|x t IH]; cbn; [reflexivity|].
  destruct (p x) eqn:E; cbn.
  - rewrite Ha. reflexivity.
  - rewrite E, IH. reflexivity.
Qed.

Lemma put_put a b r : f_id a = f_id b -> put_flow b (put_flow a r) = put_flow b r.
Proof.
  intros E. unfold put_flow, set_flows. cbn [r_flows r_ids r_names r_procs r_progs r_next].
  rewrite E, upd_upd; [reflexivity|]. unfold has_id. lia.
Qed.

(** What an operation that neither creates nor destroys a flow keeps. *)
Definition keeps (e : ev) (r r' : reg) : Prop :=
  r_ids r' = r_ids r /\ r_next r' = r_next r /\
  Forall2 (flow_moves e) (r_flows r) (r_flows r').

Lemma keeps_same e r r' : r_ids r' = r_ids r -> r_next r' = r_next r ->
  r_flows r' = r_flows r -> keeps e r r'.
Proof.
  intros H1 H2 H3. split; [auto|]. split; [auto|]. rewrite H3.
  apply refl_change. apply flow_moves_refl.
Qed.

Lemma keeps_put e r id f f' : get_flow r id = Some f -> f_id f' = id ->
  flow_moves e f f' -> keeps e r (put_flow f' r).
Proof.
  intros E Ei M. split; [reflexivity|]. split; [reflexivity|].
  apply put_change with id f; auto. apply flow_moves_refl.
Qed.

Lemma moves_data e f d : flow_moves e f (set_data d f).
Proof. split; [split; reflexivity|left; reflexivity]. Qed.

Lemma wait_end_keeps e r id f ret r' rep : get_flow r id = Some f ->
  wait_end r f ret = Ok (r', rep) -> keeps e r r'.
Proof.
  intros E H. unfold wait_end in H. inversion H; subst.
  apply keeps_put with id f; auto; [|apply moves_data].
  apply get_flow_some in E. cbn. tauto.
Qed.

Lemma del_active_flows pid r r' : del_active_proc pid r = Ok r' ->
  r_flows r' = r_flows r /\ r_ids r' = r_ids r /\ r_next r' = r_next r.
Proof. unfold del_active_proc. intros E. break. subst r'. auto. Qed.

Lemma add_active_flows pid r r' : add_active_proc pid r = Ok r' ->
  r_flows r' = r_flows r /\ r_ids r' = r_ids r /\ r_next r' = r_next r.
Proof.
  unfold add_active_proc. intros E. break.
  destruct (map_names _ _); [|discriminate E]. injection E as <-. auto.
Qed.

Lemma get_flow_ext r r' id : r_flows r' = r_flows r -> get_flow r' id = get_flow r id.
Proof. unfold get_flow. intros ->. reflexivity. Qed.

Lemma keeps_ext e r r1 r2 : r_flows r1 = r_flows r -> r_ids r1 = r_ids r ->
  r_next r1 = r_next r -> keeps e r1 r2 -> keeps e r r2.
Proof. unfold keeps. intros -> -> ->. auto. Qed.

Lemma accept_end_keeps e r id f ret r' rep : get_flow r id = Some f ->
  accept_end r f ret = Ok (r', rep) -> keeps e r r'.
Proof.
  intros E H. unfold accept_end in H.
  destruct (del_active_proc (f_npid f) r) as [r1|] eqn:Ed; [|discriminate H].
  apply del_active_flows in Ed. destruct Ed as (D1 & D2 & D3).
  apply keeps_ext with r1; auto. apply wait_end_keeps with id f ret rep; auto.
  rewrite (get_flow_ext r); auto.
Qed.

(** The two ways of ending a wait. *)
Inductive an_end : (reg -> rflow -> Z -> out (reg * reply)) -> Prop :=
| end_alloc : an_end wait_end
| end_accept : an_end accept_end.

Lemma an_end_keeps fin e r id f ret r' rep : an_end fin -> get_flow r id = Some f ->
  fin r f ret = Ok (r', rep) -> keeps e r r'.
Proof.
  intros [|] E H; [eapply wait_end_keeps|eapply accept_end_keeps]; eauto.
Qed.

Lemma an_end_put fin r f g ret : an_end fin -> f_id g = f_id f ->
  fin (put_flow g r) f ret = Abort \/
  exists r1 rep, fin (put_flow g r) f ret = Ok (put_flow (set_data None f) r1, rep) /\
    r_flows r1 = r_flows r /\ r_ids r1 = r_ids r /\ r_next r1 = r_next r.
Proof.
  intros [|] Eg.
  - right. unfold wait_end. rewrite put_put by exact Eg. eauto 8.
  - unfold accept_end, del_active_proc, assert. destruct (0 <? f_npid f)%N; [|auto].
    right. unfold wait_end.
    exists (set_names (map (fun n => name_del_active n (f_npid f)) (r_names r)) r).
    eexists. split; [|repeat split].
    f_equal. f_equal. unfold put_flow, set_flows, set_names.
    cbn [r_flows r_ids r_names r_procs r_progs r_next].
    f_equal. cbn [set_data f_id f_info]. change (f_id (set_data None f)) with (f_id f).
    rewrite Eg. apply upd_upd. unfold has_id. lia.
Qed.

Lemma wait_look_keeps fin e r id f pend r' rep : an_end fin -> get_flow r id = Some f ->
  wait_look r f pend fin = Ok (r', rep) -> keeps e r r'.
Proof.
  intros A E H. unfold wait_look in H.
  destruct (fstate_eqb (f_st f) pend).
  - inversion H; subst. apply keeps_same; reflexivity.
  - destruct (f_st f); try discriminate H; eapply an_end_keeps; eauto.
Qed.

Lemma wake_keeps fin e r id tag to pend r' rep : an_end fin ->
  (to = true -> times_out e tag) ->
  wake r id tag to pend fin = Ok (r', rep) -> keeps e r r'.
Proof.
  intros A T H. unfold wake in H.
  destruct (get_flow r id) as [f|] eqn:E; [|discriminate H]. break.
  destruct to.
  - destruct (flow_update f _ RbOk) as [[[g i] z]|] eqn:U; [|discriminate H].
    apply flow_update_ok in U. destruct U as (U1 & U2 & U3 & U4 & U5 & U6).
    cbn [set_state i_state] in U5, U6. subst z.
    destruct (an_end_put fin r g g (- ETIMEDOUT) A eq_refl) as [X|(r1 & rep1 & X & R1 & R2 & R3)];
      rewrite X in H; [discriminate H|]. inversion H; subst.
    apply keeps_ext with r1; auto.
    apply keeps_put with id f.
    + rewrite (get_flow_ext r); auto.
    + apply get_flow_some in E. cbn. change (f_id g = id). intuition congruence.
    + split; [split; [exact (eq_sym U1)|exact (eq_sym U2)]|].
      right. right. assert (Ht : f_tag f = tag) by lia. rewrite Ht.
      split; [apply T; reflexivity|].
      change (f_st g = FDeallocated).
      destruct U5 as [(_ & U5)|(U5 & _)]; [exact U5|discriminate U5].
  - eapply wait_look_keeps; eauto.
Qed.

Lemma cancel_moves e pid f : flow_moves e f (cancel_flow pid f).
Proof.
  unfold cancel_flow. destruct (f_npid f =? pid)%N; [|apply flow_moves_refl].
  destruct (f_st f) eqn:E; try apply flow_moves_refl.
  - split; [split; reflexivity|]. right. left. rewrite E. constructor.
  - split; [split; reflexivity|]. right. left. rewrite E. constructor.
Qed.

Lemma is_create e : (exists i oom, e = ECreateFlow i oom) \/ (exists id, e = EDestroyFlow id) \/
  ((forall i oom, e <> ECreateFlow i oom) /\ (forall id, e <> EDestroyFlow id)).
Proof.
  destruct e; eauto; right; right; split; intros; discriminate.
Qed.

Lemma step_keeps r e r' rep : step r e = Ok (r', rep) ->
  (forall i oom, e <> ECreateFlow i oom) -> (forall id, e <> EDestroyFlow id) ->
  keeps e r r'.
Proof.
  intros H N1 N2. destruct e; cbn [step] in H; try (exfalso; eapply N1; reflexivity);
    try (exfalso; eapply N2; reflexivity).
  - (* prepare_alloc *)
    unfold prepare_alloc in H. break.
    destruct (get_flow r (i_id i)) as [f|] eqn:E; [|discriminate H]. break.
    destruct (flow_update f _ rb) as [[[g i'] z]|] eqn:U; [|discriminate H].
    apply flow_update_ok in U. destruct U as (U1 & U2 & U3 & U4 & U5 & U6).
    cbn [set_state i_state] in U5, U6. inversion H; subst.
    apply keeps_put with (i_id i) f; auto; [cbn in U4; congruence|].
    split; [split; congruence|].
    destruct U5 as [(_ & U5)|(_ & U5)]; [|left; exact U5].
    right. left. rewrite U5, U6. constructor.
  - (* wait_allocated *)
    unfold wait_allocated in H. break.
    destruct (get_flow r (i_id i)) as [f|] eqn:E; [|discriminate H]. break.
    eapply wait_look_keeps; eauto. constructor.
  - eapply wake_keeps; [constructor| |exact H]. intros ->. left. eauto.
  - (* respond_alloc *)
    unfold respond_alloc in H. break.
    destruct (get_flow r (i_id i)) as [f|] eqn:E.
    2:{ inversion H; subst. apply keeps_same; reflexivity. }
    destruct (fstate_eqb (f_st f) FDeallocated).
    { inversion H; subst. apply keeps_same; reflexivity. }
    break. assert (Hp : f_st f = FAllocPending) by (apply fstate_eqb_eq; auto).
    destruct (f_data f); [discriminate H|]. cbv zeta in H.
    match type of H with match flow_update _ ?a _ with _ => _ end = _ => set (i1 := a) in H end.
    assert (I1 : i_id i1 = i_id i /\ i_state i1 = i_state i) by (split; reflexivity).
    destruct I1 as (I1 & I2).
    destruct (flow_update f i1 RbOk) as [[[g i'] z]|] eqn:U; [|discriminate H].
    apply flow_update_ok in U. destruct U as (U1 & U2 & U3 & U4 & U5 & U6).
    assert (M : flow_moves (ERespondAlloc i d req) f g).
    { split; [split; congruence|].
      destruct U5 as [(_ & U5)|(_ & U5)]; [|left; exact U5].
      right. left. rewrite Hp, U5, I2.
      match goal with X : (fstate_eqb _ _ || fstate_eqb _ _) = true |- _ =>
        apply orb_true_iff in X; destruct X as [X|X]; apply fstate_eqb_eq in X; rewrite X end;
      constructor. }
    assert (Gi : f_id g = i_id i) by congruence.
    destruct (z <? 0).
    { inversion H; subst. apply keeps_put with (i_id i) f; auto. }
    destruct (fstate_eqb (i_state i1) FAllocated).
    + unfold flow_set_data in H. destruct (f_data g); [discriminate H|].
      inversion H; subst. apply keeps_put with (i_id i) f; auto.
    + inversion H; subst. apply keeps_put with (i_id i) f; auto.
  - (* prepare_accept *)
    unfold prepare_accept in H. break.
    destruct (get_flow r (i_id i)) as [f|] eqn:E; [|discriminate H]. break.
    destruct (flow_update f _ RbOk) as [[[g i'] z]|] eqn:U; [|discriminate H].
    apply flow_update_ok in U. destruct U as (U1 & U2 & U3 & U4 & U5 & U6).
    cbn [set_state i_state i_id] in U4, U5, U6.
    unfold flow_set_data in H. destruct (f_data g); [discriminate H|].
    inversion H; subst. destruct U6 as (U6 & U7).
    apply keeps_put with (i_id i) f; auto; [exact (eq_trans U1 U4)|].
    split; [split; [exact (eq_sym U1)|exact (eq_sym U2)]|].
    destruct U5 as [(_ & U5)|(_ & U5)]; [|left; exact U5].
    right. left. change (f_st (set_data d g)) with (f_st g). rewrite U5, U6. constructor.
  - (* wait_accepted *)
    unfold wait_accepted in H. break.
    destruct (get_flow r (i_id i)) as [f|] eqn:E; [|discriminate H]. break.
    destruct (add_active_proc (i_npid i) r) as [r1|] eqn:Ea; [|discriminate H].
    apply add_active_flows in Ea. destruct Ea as (D1 & D2 & D3).
    apply keeps_ext with r1; auto.
    eapply wait_look_keeps; [constructor| |exact H].
    rewrite (get_flow_ext r); eauto.
  - eapply wake_keeps; [constructor| |exact H]. intros ->. right. eauto.
  - (* wait_accepting *)
    unfold wait_accepting in H. destruct (pending_flow_id r h x) as [a|]; [|discriminate H].
    destruct (a =? - EAGAIN); [destruct to|]; inversion H; subst; apply keeps_same; reflexivity.
  - (* respond_accept *)
    unfold respond_accept in H. break.
    destruct (get_flow r (i_id i)) as [f|] eqn:E.
    2:{ inversion H; subst. apply keeps_same; reflexivity. }
    break. assert (Hp : f_st f = FAcceptPending) by (apply fstate_eqb_eq; auto).
    assert (Hs : i_state i = FAllocated) by (apply fstate_eqb_eq; auto).
    cbv zeta in H.
    set (fd := if (0 <? i_cyph (set_npid (f_npid f) i))%N then (set_data d f, f_data f) else (f, d)) in H.
    assert (F1 : f_id (fst fd) = f_id f /\ f_tag (fst fd) = f_tag f /\ f_st (fst fd) = f_st f)
      by (unfold fd; destruct (0 <? _)%N; repeat split).
    destruct fd as [f1 d1]. cbn [fst] in F1. destruct F1 as (F1 & F2 & F3).
    destruct (flow_update f1 _ rb) as [[[g i'] z]|] eqn:U; [|discriminate H].
    apply flow_update_ok in U. destruct U as (U1 & U2 & U3 & U4 & U5 & U6).
    cbn [set_npid i_state i_id] in U4, U5, U6.
    assert (K : keeps (ERespondAccept i d rb) r (put_flow g r)).
    { apply keeps_put with (i_id i) f; auto; [congruence|].
      split; [split; congruence|].
      destruct U5 as [(_ & U5)|(_ & U5)]; [|left; congruence].
      right. left. rewrite Hp, U5, Hs. constructor. }
    destruct (z <? 0); inversion H; subst; exact K.
  - (* dealloc *)
    unfold dealloc_flow in H. break.
    destruct (get_flow r (i_id i)) as [f|] eqn:E; [|discriminate H].
    destruct (f_data f); [discriminate H|]. break.
    assert (Hp : f_st f = FAllocated) by (apply fstate_eqb_eq; auto). cbv zeta in H.
    destruct (flow_update _ _ RbOk) as [[[g i'] z]|] eqn:U; [|discriminate H].
    apply flow_update_ok in U. destruct U as (U1 & U2 & U3 & U4 & U5 & U6).
    cbn [set_state set_n1pid set_info i_state i_id f_tag] in U2, U4, U5, U6. subst z.
    inversion H; subst.
    apply keeps_put with (i_id i) f; auto; [exact (eq_trans U1 U4)|].
    split; [split; [exact (eq_sym U1)|exact (eq_sym U2)]|].
    destruct U5 as [(_ & U5)|(U5 & _)]; [|discriminate U5].
    right. left. rewrite Hp, U5. constructor.
  - (* dealloc_resp *)
    unfold dealloc_flow_resp in H. break.
    destruct (get_flow r (i_id i)) as [f|] eqn:E; [|discriminate H].
    destruct (f_data f); [discriminate H|]. break.
    assert (Hp : f_st f = FDeallocPending) by (apply fstate_eqb_eq; auto). cbv zeta in H.
    destruct (flow_update _ _ RbOk) as [[[g i'] z]|] eqn:U; [|discriminate H].
    apply flow_update_ok in U. destruct U as (U1 & U2 & U3 & U4 & U5 & U6).
    cbn [set_state set_n1pid set_info i_state i_id f_tag] in U2, U4, U5, U6. subst z.
    inversion H; subst.
    apply keeps_put with (i_id i) f; auto; [exact (eq_trans U1 U4)|].
    split; [split; [exact (eq_sym U1)|exact (eq_sym U2)]|].
    destruct U5 as [(_ & U5)|(U5 & _)]; [|discriminate U5].
    right. left. rewrite Hp, U5. constructor.
  - unfold create_name in H. destruct (get_name r s); inversion H; subst; apply keeps_same; reflexivity.
  - unfold destroy_name in H. destruct (get_name r s); [|inversion H; subst; apply keeps_same; reflexivity].
    destruct (del_name_from_procs s (r_procs r)); [|discriminate H].
    destruct (del_name_from_progs s (r_progs r)); [|discriminate H].
    destruct (name_destroy _); [|discriminate H].
    inversion H; subst; apply keeps_same; reflexivity.
  - unfold create_proc in H. destruct (get_proc r pid); [inversion H; subst; apply keeps_same; reflexivity|].
    cbv zeta in H.
    destruct (match get_prog r prog with Some _ => _ | None => _ end) as [[ns names]|]; [|discriminate H].
    inversion H; subst; apply keeps_same; reflexivity.
  - (* destroy_proc *)
    unfold destroy_proc in H. destruct (get_proc r pid); [|inversion H; subst; apply keeps_same; reflexivity].
    destruct (map_names _ _); [|discriminate H]. inversion H; subst.
    split; [reflexivity|]. split; [reflexivity|]. cbn [set_flows r_flows].
    induction (r_flows r) as [|f t IH]; cbn [map]; constructor; auto. apply cancel_moves.
  - unfold bind_proc in H. break.
    destruct (get_name r s) as [n|]; [|inversion H; subst; apply keeps_same; reflexivity].
    destruct (get_proc r pid) as [p|]; [|inversion H; subst; apply keeps_same; reflexivity].
    destruct (has_pid pid (n_procs n)); [inversion H; subst; apply keeps_same; reflexivity|].
    destruct (name_add_proc n pid) as [n1|]; [|discriminate H]. break. cbv zeta in H.
    destruct (get_accept_flow r pid).
    + destruct (name_add_active n1 pid); [|discriminate H].
      inversion H; subst; apply keeps_same; reflexivity.
    + inversion H; subst; apply keeps_same; reflexivity.
  - unfold unbind_proc in H. break.
    destruct (get_name r s) as [n|]; [|inversion H; subst; apply keeps_same; reflexivity].
    destruct (get_proc r pid) as [p|]; [|inversion H; subst; apply keeps_same; reflexivity].
    destruct (_ && _); [|inversion H; subst; apply keeps_same; reflexivity].
    destruct (name_del_proc n pid); [|discriminate H].
    destruct (str_del s (p_names p)); [|discriminate H].
    inversion H; subst; apply keeps_same; reflexivity.
  - unfold create_prog in H. destruct (get_prog r s); inversion H; subst; apply keeps_same; reflexivity.
  - unfold destroy_prog in H. destruct (get_prog r s); [|inversion H; subst; apply keeps_same; reflexivity].
    destruct (map_names _ _); [|discriminate H]. inversion H; subst; apply keeps_same; reflexivity.
  - unfold bind_prog in H.
    destruct (get_name r s) as [n|]; [|inversion H; subst; apply keeps_same; reflexivity].
    destruct (get_prog r (path_strip exec)) as [p|]; [|inversion H; subst; apply keeps_same; reflexivity].
    destruct (has_str exec (n_progs n)); [inversion H; subst; apply keeps_same; reflexivity|].
    destruct (has_str s (g_names p)); [inversion H; subst; apply keeps_same; reflexivity|].
    destruct (if auto then _ else _); [|discriminate H].
    inversion H; subst; apply keeps_same; reflexivity.
  - unfold unbind_prog in H.
    destruct (get_name r s) as [n|]; [|inversion H; subst; apply keeps_same; reflexivity].
    destruct (get_prog r prog) as [p|]; [|inversion H; subst; apply keeps_same; reflexivity].
    destruct (has_str s (g_names p)); [|inversion H; subst; apply keeps_same; reflexivity].
    destruct (name_del_prog n prog); [|discriminate H].
    destruct (str_del s (g_names p)); [|discriminate H].
    inversion H; subst; apply keeps_same; reflexivity.
Qed.

(** ** The invariant of the flows *)

Definition tags (r : reg) : list N := map f_tag (r_flows r).

Record finv (r : reg) : Prop := mk_finv {
  fi_pool : exists used, reach 10239 1 (r_ids r) used /\
                         (forall x, In x used <-> In x (ids r));
  fi_ids : NoDup (ids r);
  fi_tags : NoDup (tags r);
  fi_next : forall f, In f (r_flows r) -> (f_tag f < r_next r)%N
}.

Lemma finv_init : finv reg_init.
Proof.
  split.
  - exists []. split; [apply reach_create|]. intros x. reflexivity.
  - constructor.
  - constructor.
  - intros f [].
Qed.

Lemma moves_ids e l l' : Forall2 (flow_moves e) l l' ->
  map f_id l' = map f_id l /\ map f_tag l' = map f_tag l.
Proof.
  induction 1 as [|f f' t t' [[M1 M2] _] _ [IH1 IH2]]; [auto|].
  cbn [map]. rewrite IH1, IH2, M1, M2. auto.
Qed.

Lemma keeps_finv e r r' : keeps e r r' -> finv r -> finv r'.
Proof.
  intros (K1 & K2 & K3) [I1 I2 I3 I4]. destruct (moves_ids _ _ _ K3) as (M1 & M2).
  assert (Ei : ids r' = ids r) by exact M1.
  assert (Et : tags r' = tags r) by exact M2.
  split.
  - rewrite K1, Ei. exact I1.
  - rewrite Ei. exact I2.
  - rewrite Et. exact I3.
  - intros f' Hf'. rewrite K2.
    assert (In (f_tag f') (tags r)) as H by (rewrite <- Et; apply in_map; exact Hf').
    apply in_map_iff in H. destruct H as (f & <- & Hf). apply I4, Hf.
Qed.

(** What reg_create_flow does. *)
Lemma create_flow_spec r i oom r' rep : finv r -> create_flow r i oom = Ok (r', rep) ->
  (exists f b,
     r' = mk_reg b (list_ins (fun g => f_id f <? f_id g) f (r_flows r)) (r_names r)
            (r_procs r) (r_progs r) (r_next r + 1) /\
     rep = RFlow 0 (f_info f) None /\ f_st f = FInit /\ f_info f = set_id (f_id f) i /\
     f_tag f = r_next r /\ f_data f = None /\ oom = false /\
     an_id (f_id f) /\ ~ In (f_id f) (ids r) /\ finv r') \/
  (exists b i', r' = set_ids b r /\ rep = RFlow (-1) i' None /\ finv r' /\
     (oom = true \/ forall id, an_id id -> In id (ids r))).
Proof.
  intros [(used & R & HU) I2 I3 I4] H. unfold create_flow in H. break.
  destruct (bmp_allocate_fresh 10239 1 _ _ ltac:(lia) R) as (b & id & Ea & Hc).
  rewrite Ea in H.
  destruct Hc as [(E0 & Hall)|(Hp & Hn)].
  - change (1 - 1) with 0 in E0. subst id.
    pose proof (reach_alloc_fail 10239 1 _ _ _ R Ea) as R'.
    destruct (bmp_range_guard_partial 10239 1 _ _ 0 ltac:(lia) R') as (G & _).
    destruct (G ltac:(left; lia)) as (G1 & _). rewrite G1 in H. cbn [negb] in H.
    inversion H; subst. right. exists b. eexists. split; [reflexivity|]. split; [reflexivity|].
    split.
    + split; cbn [set_ids r_ids r_flows r_next]; auto. exists used. auto.
    + right. intros id Hid. apply HU, Hall. unfold in_pool, an_id in *. lia.
  - assert (Hne : id <> 1 - 1) by (unfold in_pool in Hp; lia).
    pose proof (reach_alloc_ok 10239 1 _ _ _ _ R Ea Hne) as R'.
    destruct (bmp_range_guard_partial 10239 1 _ _ id ltac:(lia) R') as (_ & G).
    rewrite (G Hp) in H. cbn [negb] in H.
    destruct (flow_create _ _) as [f|] eqn:Ef; [|discriminate H].
    unfold flow_create in Ef. break. subst f.
    destruct oom.
    + destruct (bmp_release_succeeds 10239 1 _ _ id ltac:(lia) R' (or_introl eq_refl)) as (b2 & Er).
      rewrite Er in H. inversion H; subst. right. exists b2. eexists.
      split; [reflexivity|]. split; [reflexivity|]. split; [|auto].
      split; cbn [set_ids r_ids r_flows r_next]; auto.
      pose proof (reach_release 10239 1 _ _ _ _ _ R' (or_introl eq_refl) Er) as R2.
      eexists. split; [exact R2|]. intros x. split.
      * intros Hx. apply in_remove in Hx. destruct Hx as ([Hx|Hx] & Hd); [congruence|].
        apply HU. exact Hx.
      * intros Hx. apply HU in Hx. apply in_in_remove; [|right; exact Hx].
        intros ->. exact (Hn Hx).
    + left. inversion H; subst. clear H.
      exists (mk_rflow (set_id id i) None RbNull RbNull (r_next r)), b.
      split; [reflexivity|]. cbn [f_info f_tag f_data]. split; [reflexivity|].
      split; [apply fstate_eqb_eq; assumption|]. split; [reflexivity|].
      split; [reflexivity|]. split; [reflexivity|]. split; [reflexivity|].
      split; [unfold an_id, in_pool in *; cbn in *; lia|].
      assert (Hni : ~ In id (ids r)) by (rewrite <- HU; exact Hn).
      split; [exact Hni|].
      match goal with |- finv ?a => set (rr := a) end.
      set (f := mk_rflow (set_id id i) None RbNull RbNull (r_next r)) in *.
      assert (P : Permutation (r_flows rr) (f :: r_flows r)) by (apply list_ins_perm).
      assert (Pi : Permutation (ids rr) (id :: ids r)) by exact (Permutation_map f_id P).
      assert (Pt : Permutation (tags rr) (r_next r :: tags r)) by exact (Permutation_map f_tag P).
      split.
      * exists (id :: used). split; [exact R'|]. intros x. split; intros Hx.
        -- apply (Permutation_in _ (Permutation_sym Pi)). destruct Hx as [Hx|Hx]; [left; exact Hx|].
           right. apply HU. exact Hx.
        -- apply (Permutation_in _ Pi) in Hx. destruct Hx as [Hx|Hx]; [left; exact Hx|].
           right. apply HU. exact Hx.
      * apply (Permutation_NoDup (Permutation_sym Pi)). constructor; auto.
      * apply (Permutation_NoDup (Permutation_sym Pt)). constructor; auto.
        intros Hx. apply in_map_iff in Hx. destruct Hx as (g & Hg & Hg2).
        specialize (I4 g Hg2). lia.
      * intros g Hg. apply (Permutation_in _ P) in Hg. cbn [rr r_next].
        destruct Hg as [<-|Hg]; [cbn; lia|]. specialize (I4 g Hg). lia.
Qed.

Lemma map_del_first {A} (p : A -> bool) (l : list A) x t1 t2 :
  l = t1 ++ x :: t2 -> p x = true -> (forall y, In y t1 -> p y = false) ->
  del_first p l = t1 ++ t2.
Proof.
  intros -> Hx. induction t1 as [|y t1 IH]; cbn; intros Hn.
  - rewrite Hx. reflexivity.
  - rewrite (Hn y) by auto. rewrite IH; auto.
Qed.

Lemma find_split {A} (p : A -> bool) l x : find p l = Some x ->
  exists t1 t2, l = t1 ++ x :: t2 /\ p x = true /\ (forall y, In y t1 -> p y = false).
Proof.
  induction l as [|y t IH]; cbn; intros E; [discriminate|].
  destruct (p y) eqn:Ey.
  - injection E as ->. exists [], t. repeat split; auto. intros ? [].
  - destruct (IH E) as (t1 & t2 & -> & H1 & H2). exists (y :: t1), t2.
    repeat split; auto. intros z [<-|Hz]; auto.
Qed.

(** What reg_destroy_flow does. *)
Lemma destroy_flow_spec r id r' rep : finv r -> destroy_flow r id = Ok (r', rep) ->
  (exists b f t1 t2,
     r' = set_ids b (set_flows (t1 ++ t2) r) /\ r_flows r = t1 ++ f :: t2 /\
     f_id f = id /\ rep = RInt 0 /\ finv r') \/
  (r' = r /\ rep = RInt (-1) /\ ~ In id (ids r)).
Proof.
  intros [(used & R & HU) I2 I3 I4] H. unfold destroy_flow in H. break.
  destruct (get_flow r id) as [f|] eqn:E.
  2:{ right. inversion H; subst. split; [auto|]. split; [auto|]. apply get_flow_none. auto. }
  left. pose proof (get_flow_some _ _ _ E) as (F1 & F2).
  assert (Hin : In id used) by (apply HU; rewrite <- F2; apply in_map; exact F1).
  destruct (bmp_release_succeeds 10239 1 _ _ id ltac:(lia) R Hin) as (b & Er).
  rewrite Er in H.
  destruct (flow_destroy f); [|discriminate H].
  destruct (find_split _ _ _ E) as (t1 & t2 & S1 & S2 & S3).
  rewrite (map_del_first _ _ f t1 t2 S1 S2 S3) in H. inversion H; subst r' rep.
  exists b, f, t1, t2. split; [reflexivity|]. split; [exact S1|]. split; [exact F2|].
  split; [reflexivity|].
  assert (Ei : ids r = map f_id t1 ++ id :: map f_id t2)
    by (unfold ids; rewrite S1, map_app; cbn [map]; rewrite F2; reflexivity).
  assert (Et : tags r = map f_tag t1 ++ f_tag f :: map f_tag t2)
    by (unfold tags; rewrite S1, map_app; reflexivity).
  rewrite Ei in I2. rewrite Et in I3.
  match goal with |- finv ?a => set (rr := a) end.
  assert (Ei' : ids rr = map f_id t1 ++ map f_id t2) by (unfold rr, ids; cbn; apply map_app).
  assert (Et' : tags rr = map f_tag t1 ++ map f_tag t2) by (unfold rr, tags; cbn; apply map_app).
  split.
  - exists (remove Z.eq_dec id used).
    split; [exact (reach_release 10239 1 _ _ _ _ _ R Hin Er)|].
    intros x. rewrite Ei'. split; intros Hx.
    + apply in_remove in Hx. destruct Hx as (Hx & Hd). apply HU in Hx. rewrite Ei in Hx.
      apply in_app_iff in Hx. apply in_app_iff. cbn in Hx. intuition congruence.
    + apply in_in_remove.
      * intros ->. apply NoDup_remove_2 in I2. exact (I2 Hx).
      * apply HU. rewrite Ei. apply in_app_iff in Hx. apply in_app_iff. cbn. tauto.
  - rewrite Ei'. apply NoDup_remove_1 in I2. exact I2.
  - rewrite Et'. apply NoDup_remove_1 in I3. exact I3.
  - intros g Hg. cbn in *. apply I4. rewrite S1. apply in_app_iff in Hg.
    apply in_app_iff. cbn. tauto.
Qed.

Lemma step_finv r e r' rep : finv r -> step r e = Ok (r', rep) -> finv r'.
Proof.
  intros I H. destruct (is_create e) as [(i & oom & ->)|[(id & ->)|(N1 & N2)]].
  - destruct (create_flow_spec _ _ _ _ _ I H) as [(f & b & X)|(b & i' & X)]; tauto.
  - destruct (destroy_flow_spec _ _ _ _ I H) as [(b & f & t1 & t2 & X)|(-> & X)]; tauto.
  - eapply keeps_finv; [eapply step_keeps; eauto|exact I].
Qed.

Lemma run_finv es r r' : finv r -> run r es = Ok r' -> finv r'.
Proof.
  revert r. induction es as [|e t IH]; intros r I H; cbn [run] in H.
  - injection H as <-. exact I.
  - destruct (step r e) as [[r1 rep]|] eqn:E; [|discriminate H].
    apply (IH r1); [|exact H]. eapply step_finv; eauto.
Qed.

(** ** States over histories *)

Lemma nodup_tag r f g : NoDup (tags r) -> In f (r_flows r) -> In g (r_flows r) ->
  f_tag f = f_tag g -> f = g.
Proof.
  unfold tags. induction (r_flows r) as [|x t IH]; cbn [map]; intros Hn Hf Hg E; [destruct Hf|].
  destruct Hf as [<-|Hf]; destruct Hg as [<-|Hg]; auto.
  - inversion Hn; subst. exfalso. apply H1. rewrite E. apply in_map. exact Hg.
  - inversion Hn; subst. exfalso. apply H1. rewrite <- E. apply in_map. exact Hf.
  - inversion Hn; subst. auto.
Qed.

Lemma forall2_in {A} (R : A -> A -> Prop) l l' y : Forall2 R l l' -> In y l' ->
  exists x, In x l /\ R x y.
Proof.
  induction 1 as [|a b t t' Rab _ IH]; [intros []|]. intros [<-|H].
  - exists a. cbn. auto.
  - destruct (IH H) as (x & Hx & Rx). exists x. cbn. auto.
Qed.

(** A flow present after a step was present before it and moved, or it was
    created by the step. *)
Lemma step_back r e r' rep f' : finv r -> step r e = Ok (r', rep) -> In f' (r_flows r') ->
  (exists f, In f (r_flows r) /\ flow_moves e f f') \/
  (f_tag f' = r_next r /\ f_st f' = FInit).
Proof.
  intros I H Hf. destruct (is_create e) as [(i & oom & ->)|[(id & ->)|(N1 & N2)]].
  - destruct (create_flow_spec _ _ _ _ _ I H) as
      [(f & b & -> & X1 & X2 & X3 & X4 & X5)|(b & i' & -> & X)].
    + cbn [r_flows] in Hf. apply in_list_ins in Hf. destruct Hf as [->|Hf]; [auto|].
      left. exists f'. split; [exact Hf|apply flow_moves_refl].
    + left. exists f'. split; [exact Hf|apply flow_moves_refl].
  - destruct (destroy_flow_spec _ _ _ _ I H) as [(b & f & t1 & t2 & -> & X1 & X2)|(-> & X)].
    + left. exists f'. split; [|apply flow_moves_refl]. cbn in Hf. rewrite X1.
      apply in_app_iff in Hf. apply in_app_iff. cbn. tauto.
    + left. exists f'. split; [exact Hf|apply flow_moves_refl].
  - destruct (step_keeps _ _ _ _ H N1 N2) as (_ & _ & K).
    destruct (forall2_in _ _ _ _ K Hf) as (f & Hf1 & M). eauto.
Qed.

Lemma step_next r e r' rep : finv r -> step r e = Ok (r', rep) -> (r_next r <= r_next r')%N.
Proof.
  intros I H. destruct (is_create e) as [(i & oom & ->)|[(id & ->)|(N1 & N2)]].
  - destruct (create_flow_spec _ _ _ _ _ I H) as
      [(f & b & -> & X1)|(b & i' & -> & X)]; cbn; lia.
  - destruct (destroy_flow_spec _ _ _ _ I H) as [(b & f & t1 & t2 & -> & X1 & X2)|(-> & X)]; cbn; lia.
  - destruct (step_keeps _ _ _ _ H N1 N2) as (_ & K & _). lia.
Qed.

(** How far a flow is in its life. *)
Definition rank (s : fstate) : N :=
  match s with
  | FInit => 0 | FAllocPending | FAcceptPending => 1 | FAllocated => 2
  | FDeallocPending => 3 | _ => 4
  end.

Lemma moves_rank e f f' : flow_moves e f f' ->
  f_st f' = f_st f \/ (rank (f_st f) < rank (f_st f'))%N \/ f_st f' = FDeallocated.
Proof.
  intros (_ & [M|[M|(_ & M)]]); auto. right. left. inversion M; cbn; lia.
Qed.

(** A flow found at two points of a history is as far or farther at the
    later one. *)
Lemma run_rank es r r' : finv r -> run r es = Ok r' -> forall f', In f' (r_flows r') ->
  (f_tag f' < r_next r)%N ->
  exists f, In f (r_flows r) /\ f_tag f = f_tag f' /\ f_id f = f_id f' /\
    (f_st f' = f_st f \/ f_st f' = FDeallocated \/ (rank (f_st f) < rank (f_st f'))%N).
Proof.
  revert r. induction es as [|e t IH]; intros r I H f' Hf Ht; cbn [run] in H.
  - injection H as <-. exists f'. auto.
  - destruct (step r e) as [[r1 rep]|] eqn:E; [|discriminate H].
    pose proof (step_finv _ _ _ _ I E) as I1. pose proof (step_next _ _ _ _ I E) as Hn.
    destruct (IH r1 I1 H f' Hf ltac:(lia)) as (f1 & F1 & F2 & F2i & F3).
    destruct (step_back _ _ _ _ _ I E F1) as [(f & G1 & G2)|(G1 & _)]; [|lia].
    exists f. split; [exact G1|]. pose proof G2 as ((G3 & G4) & _).
    split; [congruence|]. split; [congruence|]. apply moves_rank in G2.
    assert (X : rank FDeallocated = 4%N) by reflexivity.
    destruct F3 as [F3|[F3|F3]]; [|auto|].
    + rewrite F3. destruct G2 as [G2|[G2|G2]]; auto.
    + destruct G2 as [G2|[G2|G2]].
      * right. right. rewrite <- G2. exact F3.
      * right. right. lia.
      * rewrite G2, X in F3. destruct (f_st f'); cbn in F3; lia.
Qed.

Lemma run_app es1 es2 r r1 r2 : run r es1 = Ok r1 -> run r1 es2 = Ok r2 ->
  run r (es1 ++ es2) = Ok r2.
Proof.
  revert r. induction es1 as [|e t IH]; intros r H1 H2; cbn [run app] in *.
  - injection H1 as ->. exact H2.
  - destruct (step r e) as [[r' rep]|]; [|discriminate H1]. auto.
Qed.

(** The last two states of the enumeration are never used. *)
Lemma run_states es r0 r : finv r0 ->
  (forall f, In f (r_flows r0) -> f_st f <> FDestroy /\ f_st f <> FNull) ->
  run r0 es = Ok r ->
  forall f, In f (r_flows r) -> f_st f <> FDestroy /\ f_st f <> FNull.
Proof.
  revert r0. induction es as [|e t IH]; intros r0 I Hs H; cbn [run] in H.
  - injection H as <-. exact Hs.
  - destruct (step r0 e) as [[r1 rep]|] eqn:E; [|discriminate H].
    apply (IH r1); [eapply step_finv; eauto| |exact H].
    intros f Hf. destruct (step_back _ _ _ _ _ I E Hf) as [(g & Hg & _ & M)|(_ & ->)].
    + destruct (Hs g Hg) as (N1 & N2). destruct M as [->|[M|(_ & ->)]]; [auto| |split; discriminate].
      inversion M; split; discriminate.
    + split; discriminate.
Qed.
