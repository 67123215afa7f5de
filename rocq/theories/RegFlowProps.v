(** C34, C35, C74: flows in the registry of the IRM daemon. *)

From Coq Require Import List NArith ZArith Bool String Lia Permutation.
From Coq Require Import ZifyBool ZifyNat ZifyN.
From Verif Require Import BitmapModel BitmapSpec BitmapProofs BitmapProps.
From Verif Require Import RegModel RegSpec RegProofs.
Import ListNotations.
Open Scope Z_scope.

(** ** C34: ids *)

(** C34: at every point of every history, no two flows have the same id. *)
Theorem reg_flow_ids_unique : forall es r, run reg_init es = Ok r ->
  NoDup (ids r) /\ forall id, In id (ids r) -> an_id id.
Proof.
  intros es r H. apply (run_finv _ _ _ finv_init) in H. destruct H as [(u & R & U) I2 _ _].
  split; [exact I2|]. intros id Hid. apply U in Hid.
  destruct (BitmapProofs.reach_inv 10239 1 _ _ ltac:(lia) R) as (_ & _ & X & _).
  specialize (X id Hid). unfold in_pool, an_id in *. lia.
Qed.
Print Assumptions reg_flow_ids_unique.

(** C34: creating a flow gives an id that no flow has, which then is in use,
    or fails and changes no id; it fails only if memory runs out or all ids
    are in use. *)
Theorem reg_create_flow_fresh : forall es r i oom r' rep,
  run reg_init es = Ok r -> step r (ECreateFlow i oom) = Ok (r', rep) ->
  (exists id, rep = RFlow 0 (set_id id i) None /\ an_id id /\ ~ In id (ids r) /\
     Permutation (ids r') (id :: ids r)) \/
  (exists i', rep = RFlow (-1) i' None /\ r_flows r' = r_flows r /\
     (oom = true \/ forall id, an_id id -> In id (ids r))).
Proof.
  intros es r i oom r' rep H S. apply (run_finv _ _ _ finv_init) in H.
  destruct (create_flow_spec _ _ _ _ _ H S) as
    [(f & b & -> & -> & X1 & X2 & X3 & X4 & X5 & X6 & X7 & _)|(b & i' & -> & -> & _ & X)].
  - left. exists (f_id f). rewrite X2 at 1. split; [reflexivity|].
    split; [exact X6|]. split; [exact X7|].
    unfold ids. apply (Permutation_map f_id (list_ins_perm _ f (r_flows r))).
  - right. exists i'. auto.
Qed.
Print Assumptions reg_create_flow_fresh.

(** C34: while an id is free and memory suffices, creating a flow for a
    process succeeds. *)
Theorem reg_create_flow_succeeds : forall es r pid cyph id,
  run reg_init es = Ok r -> pid <> 0%N -> an_id id -> ~ In id (ids r) ->
  exists r' id', step r (ECreateFlow (mk_finfo 0 pid 0 0 cyph FInit) false) =
    Ok (r', RFlow 0 (mk_finfo id' pid 0 0 cyph FInit) None).
Proof.
  intros es r pid cyph id H Hp Hid Hn. pose proof H as H0.
  apply (run_finv _ _ _ finv_init) in H. destruct H as [(u & R & U) I2 _ _].
  cbn [step]. unfold create_flow, assert at 1. cbn [i_id i_npid i_state].
  change (0 =? 0) with true. unfold assert at 1.
  replace (negb (pid =? 0)%N) with true by lia. unfold assert at 1. cbn [fstate_eqb].
  destruct (bmp_allocate_fresh 10239 1 _ _ ltac:(lia) R) as (b & id' & Ea & Hc).
  rewrite Ea. destruct Hc as [(E0 & Hall)|(Hp' & Hn')].
  - exfalso. apply Hn, U, Hall. unfold in_pool, an_id in *. lia.
  - assert (Hne : id' <> 1 - 1) by (unfold in_pool in Hp'; lia).
    pose proof (reach_alloc_ok 10239 1 _ _ _ _ R Ea Hne) as R'.
    destruct (bmp_range_guard_partial 10239 1 _ _ id' ltac:(lia) R') as (_ & G).
    rewrite (G Hp'). cbn [negb].
    unfold flow_create, assert. cbn [set_id i_id i_npid i_n1pid i_mpl i_state].
    replace (0 <? id') with true by (unfold in_pool in Hp'; lia).
    replace (negb (pid =? 0)%N) with true by lia. cbn [N.eqb fstate_eqb].
    eexists _, id'. reflexivity.
Qed.
Print Assumptions reg_create_flow_succeeds.

(** C34: destroying a flow frees its own id and no other, and leaves all
    other flows as they are; destroying an unknown flow does nothing. *)
Theorem reg_destroy_flow_frees : forall es r id r' rep,
  run reg_init es = Ok r -> step r (EDestroyFlow id) = Ok (r', rep) ->
  (In id (ids r) /\ rep = RInt 0 /\
   (forall x, In x (ids r') <-> In x (ids r) /\ x <> id) /\
   (forall f, In f (r_flows r') <-> In f (r_flows r) /\ f_id f <> id)) \/
  (~ In id (ids r) /\ rep = RInt (-1) /\ r' = r).
Proof.
  intros es r id r' rep H S. apply (run_finv _ _ _ finv_init) in H.
  destruct (destroy_flow_spec _ _ _ _ H S) as [(b & f & t1 & t2 & -> & X1 & X2 & -> & _)|(-> & -> & X)];
    [|right; auto].
  left. destruct H as [_ I2 _ _].
  assert (Ei : ids r = map f_id t1 ++ id :: map f_id t2)
    by (unfold ids; rewrite X1, map_app; cbn [map]; rewrite X2; reflexivity).
  rewrite Ei in I2. apply NoDup_remove_2 in I2.
  assert (Hf : forall g, In g (t1 ++ t2) <-> In g (r_flows r) /\ f_id g <> id).
  { intros g. rewrite X1, !in_app_iff. cbn [In]. split.
    - intros Hg. split; [tauto|]. intros Eg. apply I2. rewrite <- map_app, <- Eg.
      apply in_map. apply in_app_iff. exact Hg.
    - intros ([Hg|[Hg|Hg]] & Hd); auto. congruence. }
  split; [rewrite Ei; apply in_app_iff; cbn; auto|]. split; [reflexivity|].
  split; [|exact Hf]. intros x. unfold ids. cbn [set_ids set_flows r_flows].
  rewrite !in_map_iff. split.
  - intros (g & <- & Hg). apply Hf in Hg. split; [exists g; tauto|tauto].
  - intros ((g & <- & Hg) & Hd). exists g. split; [reflexivity|]. apply Hf. tauto.
Qed.
Print Assumptions reg_destroy_flow_frees.

(** ** C35: the life cycle *)

(** C35, the part that holds: each operation leaves each flow in its state or
    moves it along the life cycle, except that a wait that times out makes
    its flow deallocated whatever its state has become meanwhile.
    Missing for the full property: that exception (see the refutation). *)
Theorem reg_flow_life_partial : forall es r e r' rep f f',
  run reg_init es = Ok r -> step r e = Ok (r', rep) ->
  In f (r_flows r) -> In f' (r_flows r') -> f_tag f' = f_tag f ->
  f_id f' = f_id f /\
  (f_st f' = f_st f \/ life (f_st f) (f_st f') \/
   (times_out e (f_tag f) /\ f_st f' = FDeallocated)).
Proof.
  intros es r e r' rep f f' H S Hf Hf' Et. apply (run_finv _ _ _ finv_init) in H.
  destruct (step_back _ _ _ _ _ H S Hf') as [(g & Hg & M)|(Hn & _)].
  - pose proof M as ((M1 & M2) & M3).
    assert (g = f) as -> by (apply (nodup_tag r); auto; [apply H|congruence]).
    split; [congruence|exact M3].
  - destruct H as [_ _ _ I4]. specialize (I4 f Hf). lia.
Qed.
Print Assumptions reg_flow_life_partial.

(** C35: new flows start in the initial state; a flow that has left the
    allocated state never is allocated again, and an allocated flow never
    goes back to pending.  This holds over any number of operations. *)
Theorem reg_flow_never_again : forall es1 es2 r1 r2 f1 f2,
  run reg_init es1 = Ok r1 -> run r1 es2 = Ok r2 ->
  In f1 (r_flows r1) -> In f2 (r_flows r2) -> f_tag f1 = f_tag f2 ->
  f_id f1 = f_id f2 /\
  (f_st f1 = FDeallocPending \/ f_st f1 = FDeallocated ->
   f_st f2 = FDeallocPending \/ f_st f2 = FDeallocated) /\
  (f_st f1 = FAllocated ->
   f_st f2 = FAllocated \/ f_st f2 = FDeallocPending \/ f_st f2 = FDeallocated) /\
  (f_st f1 = FDeallocated -> f_st f2 = FDeallocated).
Proof.
  intros es1 es2 r1 r2 f1 f2 H1 H2 F1 F2 Et.
  pose proof (run_app _ _ _ _ _ H1 H2) as H0. apply (run_finv _ _ _ finv_init) in H1.
  assert (Ht : (f_tag f2 < r_next r1)%N) by (rewrite <- Et; destruct H1; auto).
  destruct (run_rank _ _ _ H1 H2 f2 F2 Ht) as (g & G1 & G2 & G3 & G4).
  assert (g = f1) as -> by (apply (nodup_tag r1); auto; [apply H1|congruence]).
  destruct (run_states _ _ _ finv_init (fun f H => match H with end) H0 f2 F2) as (N1 & N2).
  split; [congruence|].
  destruct G4 as [G4|[G4|G4]].
  - rewrite G4. tauto.
  - rewrite G4. tauto.
  - split; [|split].
    + intros [E|E]; rewrite E in G4; destruct (f_st f2); cbn in G4; try lia; auto; congruence.
    + intros E; rewrite E in G4; destruct (f_st f2); cbn in G4; try lia; auto; congruence.
    + intros E; rewrite E in G4; destruct (f_st f2); cbn in G4; try lia; auto; congruence.
Qed.
Print Assumptions reg_flow_never_again.

(** C35: deallocation is only accepted for an allocated flow, which then
    waits for its IPCP. *)
Theorem reg_dealloc_only_allocated : forall r i r' rep,
  step r (EDealloc i) = Ok (r', rep) ->
  exists f, get_flow r (i_id i) = Some f /\ f_st f = FAllocated /\
  exists f', In f' (r_flows r') /\ f_tag f' = f_tag f /\ f_st f' = FDeallocPending.
Proof.
  intros r i r' rep H. cbn [step] in H. unfold dealloc_flow in H. break.
  destruct (get_flow r (i_id i)) as [f|] eqn:E; [|discriminate H].
  destruct (f_data f); [discriminate H|]. break.
  exists f. split; [reflexivity|]. split; [apply fstate_eqb_eq; assumption|]. cbv zeta in H.
  destruct (flow_update _ _ RbOk) as [[[g i'] z]|] eqn:U; [|discriminate H].
  apply flow_update_ok in U. destruct U as (U1 & U2 & U3 & U4 & U5 & U6).
  cbn [set_state set_n1pid set_info i_state i_id f_tag] in U2, U4, U5, U6. subst z.
  inversion H; subst. exists g.
  split; [|split; [exact U2|]].
  - unfold put_flow. cbn [set_flows r_flows].
    assert (Hg : has_id (f_id g) f = true).
    { apply get_flow_some in E. unfold has_id. destruct E as (_ & E). unfold f_id in *.
      cbn in *. lia. }
    apply get_flow_some in E. destruct E as (E & _). clear - E Hg.
    induction (r_flows r) as [|x t IH]; cbn; [destruct E|].
    destruct (has_id (f_id g) x) eqn:Ex; cbn; auto.
    destruct E as [->|E]; [congruence|]. auto.
  - destruct U5 as [(_ & U5)|(U5 & _)]; [exact U5|discriminate U5].
Qed.
Print Assumptions reg_dealloc_only_allocated.

(** Requests as the library and the IPCPs send them. *)
Definition new_flow (pid : N) : finfo := mk_finfo 0 pid 0 0 0 FInit.
Definition alloc_info (id : Z) (pid n1 : N) : finfo := mk_finfo id pid n1 0 0 FInit.
Definition answer (id : Z) : finfo := mk_finfo id 0 0 60 0 FAllocated.

(** A process allocates a flow: flow_alloc (main.c:1051-1076). *)
Definition flow_alloc_evs (id : Z) (pid n1 : N) : list ev :=
  [ECreateFlow (new_flow pid) false;
   EPrepareAlloc (alloc_info id pid n1) RbOk;
   EWaitAllocated (set_state FAllocPending (alloc_info id pid n1))].

(** C35 is false of the code: the IPCP confirms the allocation, but the
    caller's wait times out before it runs again.  The allocated flow goes
    straight to deallocated; no IPCP was told to deallocate it. *)
Definition timeout_race : list ev := flow_alloc_evs 1 10 20 ++ [ERespondAlloc (answer 1) None 0].

Theorem reg_flow_life_refuted :
  exists es e r r' rep f f', run reg_init es = Ok r /\ step r e = Ok (r', rep) /\
    In f (r_flows r) /\ In f' (r_flows r') /\ f_tag f' = f_tag f /\
    f_st f = FAllocated /\ f_st f' = FDeallocated /\ ~ life (f_st f) (f_st f').
Proof.
  exists timeout_race, (EWakeAllocated 1 0 true).
  remember (run reg_init timeout_race) as o eqn:Eo.
  assert (A : match o with
              | Ok r =>
                  match r_flows r, step r (EWakeAllocated 1 0 true) with
                  | [f], Ok (r', _) =>
                      f_st f = FAllocated /\
                      match r_flows r' with
                      | [f'] => f_tag f' = f_tag f /\ f_st f' = FDeallocated
                      | _ => False
                      end
                  | _, _ => False
                  end
              | Abort => False
              end)
    by (rewrite Eo; vm_compute; auto).
  destruct o as [r|]; [|destruct A].
  destruct (r_flows r) as [|f [|]] eqn:Ef; try (destruct A; fail).
  destruct (step r (EWakeAllocated 1 0 true)) as [[r' rep]|] eqn:Es; [|destruct A].
  destruct A as (A1 & A). destruct (r_flows r') as [|f' [|]] eqn:Ef'; try (destruct A; fail).
  destruct A as (A2 & A3).
  exists r, r', rep, f, f'. split; [reflexivity|]. split; [exact Es|].
  rewrite Ef, Ef'. split; [left; reflexivity|]. split; [left; reflexivity|].
  split; [exact A2|]. split; [exact A1|]. split; [exact A3|].
  rewrite A1, A3. intros L. inversion L.
Qed.
Print Assumptions reg_flow_life_refuted.

(** C35 is false of the code: a second deallocation of a flow is not refused,
    it aborts the daemon. *)
Definition dealloc_info : finfo := mk_finfo 1 10 0 0 0 FInit.

Theorem reg_second_dealloc_refuted :
  (exists r, run reg_init (timeout_race ++ [EWakeAllocated 1 0 false; EDealloc dealloc_info]) = Ok r
     /\ List.length (r_flows r) = 1%nat) /\
  run reg_init (timeout_race ++ [EWakeAllocated 1 0 false; EDealloc dealloc_info;
                                 EDealloc dealloc_info]) = Abort.
Proof.
  split; [|vm_compute; reflexivity].
  destruct (run reg_init _) as [r|] eqn:E.
  - exists r. split; [reflexivity|].
    assert (X : match run reg_init (timeout_race ++ [EWakeAllocated 1 0 false; EDealloc dealloc_info]) with
                | Ok r => List.length (r_flows r) = 1%nat | Abort => False end) by (vm_compute; reflexivity).
    rewrite E in X. exact X.
  - exfalso.
    assert (X : match run reg_init (timeout_race ++ [EWakeAllocated 1 0 false; EDealloc dealloc_info]) with
                | Ok r => True | Abort => False end) by (vm_compute; exact I).
    rewrite E in X. exact X.
Qed.
Print Assumptions reg_second_dealloc_refuted.

(** ** C74: whose allocation an answer completes *)

(** C74, the part that holds: if the flow whose allocation the IPCP answers
    is still registered under the id in the answer, the answer changes that
    flow and no other.
    Missing for the full property: answers to allocations that were given up
    (see the refutation). *)
Theorem reg_answer_partial : forall es r i d req r' rep f0,
  run reg_init es = Ok r -> step r (ERespondAlloc i d req) = Ok (r', rep) ->
  In f0 (r_flows r) -> f_tag f0 = req -> f_id f0 = i_id i ->
  forall f', In f' (r_flows r') -> f_tag f' <> req -> In f' (r_flows r).
Proof.
  intros es r i d req r' rep f0 H S F0 T0 I0 f' Hf' Ht.
  apply (run_finv _ _ _ finv_init) in H.
  assert (P : r' = r \/ exists g, f_id g = i_id i /\ (exists g0, get_flow r (i_id i) = Some g0 /\
              f_tag g = f_tag g0) /\ r' = put_flow g r).
  { cbn [step] in S. unfold respond_alloc in S. break.
    destruct (get_flow r (i_id i)) as [f|] eqn:E; [|inversion S; subst; left; reflexivity].
    destruct (fstate_eqb (f_st f) FDeallocated); [inversion S; subst; left; reflexivity|].
    break. destruct (f_data f); [discriminate S|]. cbv zeta in S.
    destruct (flow_update f _ RbOk) as [[[g i'] z]|] eqn:U; [|discriminate S].
    apply flow_update_ok in U. destruct U as (U1 & U2 & U3 & U4 & _).
    cbn [set_n1pid set_npid i_id] in U4.
    assert (Gi : f_id g = i_id i) by congruence.
    destruct (z <? 0).
    { inversion S; subst. right. exists g. split; [exact Gi|]. split; [eauto|reflexivity]. }
    destruct (fstate_eqb _ FAllocated).
    - unfold flow_set_data in S. destruct (f_data g); [discriminate S|]. inversion S; subst.
      right. exists (set_data d g). split; [exact Gi|]. split; [eauto|reflexivity].
    - inversion S; subst. right. exists g. split; [exact Gi|]. split; [eauto|reflexivity]. }
  destruct P as [->|(g & G1 & (g0 & G2 & G3) & ->)]; [exact Hf'|].
  unfold put_flow in Hf'. cbn [set_flows r_flows] in Hf'.
  apply in_upd_first in Hf'. destruct Hf' as [Hf'|(x & X1 & X2 & ->)]; [exact Hf'|].
  exfalso. apply Ht. rewrite G3. apply get_flow_some in G2. destruct G2 as (G2 & G4).
  rewrite <- T0. f_equal.
  assert (NoDup (ids r)) as Hn by apply H. unfold ids in Hn. clear - Hn F0 G2 I0 G4.
  revert Hn F0 G2. induction (r_flows r) as [|x t IH]; cbn [map]; intros Hn F0 G2; [destruct F0|].
  inversion Hn; subst. destruct F0 as [->|F0]; destruct G2 as [->|G2]; auto.
  - exfalso. apply H1. rewrite I0, <- G4. apply in_map. exact G2.
  - exfalso. apply H1. rewrite G4, <- I0. apply in_map. exact F0.
Qed.
Print Assumptions reg_answer_partial.

(** C74 is false of the code: process 10 gives up its allocation of flow 1 on
    a time-out, process 11 starts an allocation through another IPCP and gets
    id 1 again; then the answer to the first allocation arrives.  It
    completes the allocation of process 11. *)
Definition late_answer : list ev :=
  flow_alloc_evs 1 10 20 ++ [EWakeAllocated 1 0 true; EDestroyFlow 1] ++
  flow_alloc_evs 1 11 30.

Theorem reg_answer_refuted :
  exists r r' rep f f', run reg_init late_answer = Ok r /\
    step r (ERespondAlloc (answer 1) None 0) = Ok (r', rep) /\
    In f (r_flows r) /\ In f' (r_flows r') /\ f_tag f' = f_tag f /\ f_tag f <> 0%N /\
    f_npid f = 11%N /\ f_st f = FAllocPending /\ f_st f' = FAllocated.
Proof.
  remember (run reg_init late_answer) as o eqn:Eo.
  assert (A : match o with
              | Ok r =>
                  match r_flows r, step r (ERespondAlloc (answer 1) None 0) with
                  | [f], Ok (r', _) =>
                      f_tag f = 1%N /\ f_npid f = 11%N /\ f_st f = FAllocPending /\
                      match r_flows r' with
                      | [f'] => f_tag f' = f_tag f /\ f_st f' = FAllocated
                      | _ => False
                      end
                  | _, _ => False
                  end
              | Abort => False
              end)
    by (rewrite Eo; vm_compute; auto 10).
  destruct o as [r|]; [|destruct A].
  destruct (r_flows r) as [|f [|]] eqn:Ef; try (destruct A; fail).
  destruct (step r (ERespondAlloc (answer 1) None 0)) as [[r' rep]|] eqn:Es; [|destruct A].
  destruct A as (A1 & A2 & A3 & A). destruct (r_flows r') as [|f' [|]] eqn:Ef'; try (destruct A; fail).
  destruct A as (A4 & A5).
  exists r, r', rep, f, f'. split; [reflexivity|]. split; [exact Es|].
  rewrite Ef, Ef'. split; [left; reflexivity|]. split; [left; reflexivity|].
  split; [exact A4|]. split; [rewrite A1; discriminate|]. auto.
Qed.
Print Assumptions reg_answer_refuted.

(** Non-vacuity: a registry with three flows in different states; the middle
    one is destroyed and its id is the next one given. *)
Example reg_flows_example :
  match run reg_init (flow_alloc_evs 1 10 20 ++ flow_alloc_evs 2 11 20 ++
                      [ERespondAlloc (answer 2) None 1; EWakeAllocated 2 1 false;
                       ECreateFlow (new_flow 12) false; EDealloc (mk_finfo 2 11 0 0 0 FInit);
                       EDeallocResp (mk_finfo 2 0 20 0 0 FInit); EDestroyFlow 2]) with
  | Ok r => map f_id (r_flows r) = [3; 1] /\ map f_st (r_flows r) = [FInit; FAllocPending] /\
            match step r (ECreateFlow (new_flow 13) false) with
            | Ok (_, RFlow 0 i _) => i_id i = 2
            | _ => False
            end
  | Abort => False
  end.
Proof. vm_compute. auto. Qed.
