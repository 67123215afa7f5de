(* C78: flow descriptors.  For every history of calls by any number of
   threads, a descriptor that is given out is not in use and stays with its
   flow until it is given back; calls on other numbers are refused; nothing
   leaks.  The library keeps this only for careful programs. *)
From Coq Require Import List ZArith NArith Bool Lia.
From Verif Require Import BitmapModel DevFlowModel DevFlowSpec DevFlowProofs.
Import ListNotations.
Open Scope Z_scope.

(* Every call of a careful program ends, without undefined behaviour, with a
   result the program may see. *)
Theorem flow_descriptors_partial : forall a v e,
  reach careful a v -> env_ok v e -> careful v e ->
  exists a' r v', step a e = Ok (a', r) /\ accept v e r = Some v'.
Proof.
  intros a v e H He Hc.
  destruct (step_inv a v e (reach_inv a v H) He Hc) as (a' & r & v' & E & A & _).
  exists a', r, v'. auto.
Qed.
Print Assumptions flow_descriptors_partial.

(* The rings, flow sets and FRCT instances that are open are those of the
   flows in use, also after allocations that failed half-way; and the count
   of FRCT instances that decides whether the timer thread runs is right. *)
Theorem flow_resources_partial : forall a v,
  reach careful a v ->
  NoDup (open_h a) /\ length (open_h a) = needed (live v) /\
  n_frcti a = ordered (live v) /\
  NoDup (map fst (live v)) /\ (forall p, In p (live v) -> 64 <= fst p < 4096).
Proof.
  intros a v H. apply reach_inv in H. pose proof (i_core _ _ H) as I.
  split; [exact (i_nd _ _ _ _ I)|]. split.
  { rewrite (Permutation.Permutation_length (i_perm _ _ _ _ I)). apply needed_hs. exact (i_live _ _ _ _ I). }
  split; [exact (i_n _ _ _ _ I)|]. split; [exact (fds_nodup _ _ _ _ I)|].
  intros p Hp. exact (fds_range _ _ _ _ _ I Hp).
Qed.
Print Assumptions flow_resources_partial.

(* A process can use all 4032 descriptors: allocation is refused only then. *)
Theorem flow_capacity_partial : forall a v id o,
  reach careful a v -> env_ok v (Alloc id o NoFail) ->
  Z.of_nat (length (live v)) < 4032 ->
  exists a' fd, step a (Alloc id o NoFail) = Ok (a', RFd fd) /\ owner (live v) fd = None.
Proof.
  intros a v id o H He Hl.
  assert (Hc : careful v (Alloc id o NoFail)) by (cbn; discriminate).
  destruct (flow_descriptors_partial a v _ H He Hc) as (a' & r & v' & E & A).
  destruct r as [fd| | | | | | |]; cbn in A; try discriminate.
  - exists a', fd. split; [exact E|]. destruct (owner (live v) fd); [|reflexivity].
    rewrite andb_false_r in A. discriminate.
  - unfold full in A. replace (Z.of_nat (length (live v)) =? 4032) with false in A by lia. discriminate.
Qed.
Print Assumptions flow_capacity_partial.

Definition anything (v : view) (e : event) : Prop := True.

(* Checking that a concrete history is one of the histories of [reach]. *)
Definition env_okb (v : view) (e : event) : bool :=
  negb (gone v) &&
  match e with
  | Alloc id _ _ => (0 <=? id) && (id <? 10240) && match holder (live v) id with None => true | _ => false end
  | DeallocBegin t _ => match pend_find (pending v) t with None => true | _ => false end
  | Exit => match pending v with [] => true | _ => false end
  | _ => true
  end.

Definition carefulb (v : view) (e : event) : bool :=
  let held fd := negb (dirty v) || match owner (live v) fd with None => false | _ => true end in
  let inside fd := negb ((4096 <=? fd) && (fd <? 10240)) in
  match e with
  | Alloc _ o f => negb (fail_eqb f FailAdd) || negb o
  | Use fd => held fd
  | Cntl fd => held fd && inside fd
  | DeallocBegin t fd => held fd && inside fd && negb (existsb (Z.eqb fd) (map snd (pending v)))
  | Lookup id => existsb (Z.eqb id) (known v)
  | Exit => negb (dirty v)
  | DeallocEnd _ _ => true
  end.

Fixpoint replay (c : view -> event -> bool) (a : ai) (v : view) (l : list event) : option (ai * view) :=
  match l with
  | [] => Some (a, v)
  | e :: l' =>
      if env_okb v e && c v e then
        match step a e with
        | Ok (a', r) => match accept v e r with Some v' => replay c a' v' l' | None => None end
        | UB => None
        end
      else None
  end.

Lemma env_okb_ok v e : env_okb v e = true -> env_ok v e.
Proof.
  unfold env_okb, env_ok. intros H. apply andb_prop in H. destruct H as [H1 H2].
  split; [destruct (gone v); [discriminate|reflexivity]|].
  destruct e; auto.
  - destruct (holder (live v) id); [rewrite andb_false_r in H2; discriminate|]. split; [lia|reflexivity].
  - destruct (pend_find (pending v) t); [discriminate|reflexivity].
  - destruct (pending v); [reflexivity|discriminate].
Qed.

Lemma carefulb_ok v e : carefulb v e = true -> careful v e.
Proof.
  unfold carefulb, careful. intros H.
  destruct e; auto.
  - intros ->. destruct in_order; [discriminate|reflexivity].
  - intros E. rewrite E in H. cbn in H. destruct (owner (live v) fd); discriminate.
  - apply andb_prop in H. destruct H as [H H0].
    split; [|lia]. intros E. rewrite E in H. cbn in H. destruct (owner (live v) fd); discriminate.
  - apply andb_prop in H. destruct H as [H H0]. apply andb_prop in H. destruct H as [H H1].
    split; [|split; [lia|]].
    + intros E. rewrite E in H. cbn in H. destruct (owner (live v) fd); discriminate.
    + intros Hin. apply negb_true_iff in H0. rewrite <- not_true_iff_false in H0. apply H0.
      apply existsb_exists. exists fd. split; [exact Hin|apply Z.eqb_refl].
  - apply existsb_exists in H. destruct H as (x & Hx & E). apply Z.eqb_eq in E. subst. exact Hx.
  - destruct (dirty v); [discriminate|reflexivity].
Qed.

Lemma replay_reach c (P : view -> event -> Prop) : (forall v e, c v e = true -> P v e) ->
  forall l a v a' v', reach P a v -> replay c a v l = Some (a', v') -> reach P a' v'.
Proof.
  intros HP. induction l as [|e l IH]; intros a v a' v' H E; cbn [replay] in E.
  - injection E as <- <-. exact H.
  - destruct (env_okb v e && c v e) eqn:Ec; [|discriminate]. apply andb_prop in Ec. destruct Ec as [E1 E2].
    destruct (step a e) as [[a1 r]|] eqn:Es; [|discriminate].
    destruct (accept v e r) as [v1|] eqn:Ea; [|discriminate].
    eapply IH; [|exact E]. eapply reach_step; [exact H|apply env_okb_ok; exact E1|apply HP; exact E2|exact Es|exact Ea].
Qed.

Ltac history l := eapply (replay_reach (fun _ _ => true) anything (fun _ _ _ => I) l);
  [apply reach_init|lazy; reflexivity].

(* After an allocation failed because a ring could not be opened, the slot
   still carries the id of that flow: a call on the free descriptor is not
   refused but follows a NULL pointer. *)
Theorem failed_alloc_use_refuted :
  exists a v, reach anything a v /\ env_ok v (Use 64) /\
    owner (live v) 64 = None /\ step a (Use 64) = UB.
Proof.
  eexists. eexists. split.
  - history [Alloc 7 false FailRx].
  - split; [split; [reflexivity|exact I]|]. split; reflexivity.
Qed.
Print Assumptions failed_alloc_use_refuted.

(* And the process fails when it exits, because it cleans up a flow it does
   not have. *)
Theorem failed_alloc_exit_refuted :
  exists a v, reach anything a v /\ env_ok v Exit /\ live v = [] /\ step a Exit = UB.
Proof.
  eexists. eexists. split.
  - history [Alloc 7 false FailTx].
  - split; [split; reflexivity|]. split; [reflexivity|]. vm_compute. reflexivity.
Qed.
Print Assumptions failed_alloc_exit_refuted.

(* If the allocation failed while the flow was registered for FRCT, the next
   allocation fails an assertion. *)
Theorem failed_alloc_next_refuted :
  exists a v, reach anything a v /\ env_ok v (Alloc 8 false NoFail) /\
    live v = [] /\ step a (Alloc 8 false NoFail) = UB.
Proof.
  eexists. eexists. split.
  - history [Alloc 7 true FailAdd].
  - split; [split; [reflexivity|cbn; split; [lia|reflexivity]]|]. split; [reflexivity|]. vm_compute. reflexivity.
Qed.
Print Assumptions failed_alloc_next_refuted.

(* Two threads that deallocate the same descriptor: the second one unlinks a
   list node that is all zero, where it should report that there is no such
   flow. *)
Theorem double_dealloc_refuted :
  exists a v, reach anything a v /\ env_ok v (DeallocEnd 2 true) /\
    owner (live v) 64 = None /\ step a (DeallocEnd 2 true) = UB.
Proof.
  eexists. eexists. split.
  - history [Alloc 7 false NoFail; DeallocBegin 1 64; DeallocBegin 2 64; DeallocEnd 1 true].
  - split; [split; [reflexivity|exact I]|]. split; [reflexivity|]. vm_compute. reflexivity.
Qed.
Print Assumptions double_dealloc_refuted.

(* If another thread allocates a flow in between, the second call destroys
   that flow: flow 8 is gone although nobody deallocated it after it was
   allocated. *)
Theorem dealloc_other_flow_refuted :
  exists a, run ai_init
    [Alloc 7 false NoFail; DeallocBegin 1 64; DeallocBegin 2 64; DeallocEnd 1 true;
     Alloc 8 false NoFail; Use 64; DeallocEnd 2 true; Use 64]
  = Ok (a, [RFd 64; RPending; RPending; RFd 0; RFd 64; RFlow 8; RFd 0; ENOTALLOC]).
Proof. eexists. lazy. reflexivity. Qed.
Print Assumptions dealloc_other_flow_refuted.

(* fccntl and flow_dealloc check the descriptor against the number of flows
   in the system and then read outside the table of the process. *)
Theorem fd_bounds_refuted : forall a v fd,
  reach anything a v -> 4096 <= fd < 10240 ->
  step a (Cntl fd) = UB /\ step a (DeallocBegin 0 fd) = UB /\ step a (Use fd) = Ok (a, EBADF).
Proof.
  intros a v fd _ H. cbn [step].
  unfold flow_cntl, dealloc_begin, flow_use, get_slot, SYS_MAX_FLOWS, PROG_MAX_FLOWS.
  replace (fd <? 0) with false by lia. replace (10240 <=? fd) with false by lia.
  replace (4096 <=? fd) with true by lia. replace (0 <=? fd) with true by lia.
  replace (fd <? 4096) with false by lia. auto.
Qed.
Print Assumptions fd_bounds_refuted.

(* A request to deallocate a flow id that this process never had is served
   from memory that was never written. *)
Theorem unknown_id_refuted :
  exists a v, reach anything a v /\ env_ok v (Lookup 9) /\ step a (Lookup 9) = UB.
Proof.
  eexists. eexists. split.
  - history [Alloc 7 false NoFail].
  - split; [split; [reflexivity|exact I]|reflexivity].
Qed.
Print Assumptions unknown_id_refuted.

(* A careful history: two flows, one in order, a failed allocation, a
   deallocation overlapping with use of the other flow, and reuse of the
   descriptor. *)
Example careful_history : exists a,
  reach careful a (View [(64, (9, false)); (65, (8, true))] [] [9; 8; 7] true false) /\
  length (open_h a) = 7%nat.
Proof.
  eexists. split.
  - eapply (replay_reach carefulb careful carefulb_ok
      [Alloc 7 false NoFail; Alloc 8 true NoFail; DeallocBegin 1 64; Alloc 10 true FailFrct; Use 65;
       DeallocEnd 1 true; Alloc 9 false NoFail; Lookup 8; Cntl 64]); [apply reach_init|lazy; reflexivity].
  - reflexivity.
Qed.
