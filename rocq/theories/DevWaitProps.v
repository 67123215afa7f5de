(* C79: a response to a flow request waits for the flow that it answers.  For
   every schedule of waiters, wake-ups and flows coming and going under one
   flow id, the call returns the descriptor of the flow with that id, once
   there is one. *)
From Coq Require Import List ZArith Bool Arith Lia.
From Verif Require Import DevWaitModel.
Import ListNotations.

(* The flow that has the id after a history: its descriptor. *)
Fixpoint current (c : option Z) (l : list event) : option Z :=
  match l with
  | [] => c
  | FlowInit d :: l' => current (Some d) l'
  | FlowFini _ :: l' => current None l'
  | _ :: l' => current c l'
  end.

(* Threads inside np1_flow_resp after a history, from the calls and the
   answers. *)
Fixpoint inside (ts : list nat) (l : list event) (os : list out) : list nat :=
  match l, os with
  | e :: l', o :: os' =>
      let ts := match e with Call t => t :: ts | _ => ts end in
      let ts := match o with Resp t _ => filter (fun u => negb (Nat.eqb u t)) ts | _ => ts end in
      inside ts l' os'
  | _, _ => ts
  end.

(* The daemon's part: a flow is initialised when there is none and ended when
   there is one, threads make one call at a time; and (the careful part) no
   flow is ended while a thread is inside np1_flow_resp. *)
Fixpoint orderly (careful : bool) (c : option Z) (ts : list nat) (l : list event) (os : list out) : Prop :=
  match l, os with
  | e :: l', o :: os' =>
      match e with
      | FlowInit d => c = None /\ (0 <= d)%Z
      | FlowFini t => c <> None /\ ~ In t ts /\ (careful = true -> ts = [])
      | Call t => ~ In t ts
      | _ => True
      end /\
      orderly careful (current c [e]) (inside ts [e] [o]) l' os'
  | _, _ => True
  end.

(* Every answer is the descriptor of the flow that has the id at that time. *)
Fixpoint answers_ok (c : option Z) (l : list event) (os : list out) : Prop :=
  match l, os with
  | e :: l', o :: os' =>
      match o with
      | Resp _ d => c = Some d
      | Abort => False
      | Nothing => True
      end /\ answers_ok (current c [e]) l' os'
  | _, _ => True
  end.

(* ---- invariant ---- *)
Record Inv (m : fmap) (c : option Z) (ts : list nat) : Prop := mkInv {
  v_some : forall d, c = Some d -> st m = ALLOCATED /\ fd m = Some d;
  v_none : c = None -> st m = INIT \/ st m = ALLOC_PENDING;
  v_thr : forall t p, find (thr m) t = Some p -> In t ts /\ (p = InWait \/ (p = ReadFd /\ c <> None));
  v_in : forall t, In t ts -> find (thr m) t <> None;
  v_pend : c = None -> (exists t, In t ts) -> st m = ALLOC_PENDING
}.

Lemma find_del l t u : find (del l t) u = if Nat.eqb u t then None else find l u.
Proof.
  unfold del. induction l as [|[w p] l IH]; cbn [filter fst find].
  - destruct (Nat.eqb u t); reflexivity.
  - destruct (Nat.eqb_spec w t) as [E|E]; cbn [negb find].
    + rewrite IH. destruct (Nat.eqb_spec u t), (Nat.eqb_spec w u); try reflexivity; lia.
    + rewrite IH. destruct (Nat.eqb_spec w u), (Nat.eqb_spec u t); try reflexivity; lia.
Qed.

Lemma find_put l t p u : find (put l t p) u = if Nat.eqb u t then Some p else find l u.
Proof.
  unfold put. cbn [find]. rewrite find_del.
  destruct (Nat.eqb_spec t u), (Nat.eqb_spec u t); try reflexivity; lia.
Qed.

Definition rm (t : nat) (ts : list nat) := filter (fun u => negb (Nat.eqb u t)) ts.
Lemma rm_in t u ts : In u (rm t ts) <-> In u ts /\ u <> t.
Proof. unfold rm. rewrite filter_In. destruct (Nat.eqb_spec u t); cbn; intuition congruence. Qed.

Lemma step_inv m c ts e o m' : Inv m c ts -> step m e = (m', o) ->
  match e with
  | FlowInit d => c = None /\ (0 <= d)%Z
  | FlowFini t => c <> None /\ ~ In t ts /\ ts = []
  | Call t => ~ In t ts
  | _ => True
  end ->
  Inv m' (current c [e]) (inside ts [e] [o]) /\
  match o with Resp _ d => c = Some d | Abort => False | Nothing => True end.
Proof.
  intros [V1 V2 V3 V4 V5] Hs Hc.
  destruct e as [t|t|t|d|t|t]; cbn [step current inside] in *.
  - (* Call *)
    destruct (find (thr m) t) as [p|] eqn:Hf.
    { exfalso. apply Hc. destruct (V3 t p Hf). assumption. }
    unfold wait_begin in Hs. destruct c as [d|].
    + destruct (V1 d eq_refl) as [Es Ef]. rewrite Es in Hs. cbn [fstate_eqb] in Hs.
      injection Hs as <- <-. split; [|exact I]. split; cbn [st fd thr].
      * intros d' E. split; [reflexivity|]. apply V1. exact E.
      * discriminate.
      * intros u p. rewrite find_put. destruct (Nat.eqb_spec u t) as [E|E].
        -- intros [= <-]. subst. split; [left; reflexivity|]. right. split; [reflexivity|discriminate].
        -- intros Hu. destruct (V3 u p Hu). split; [right; assumption|assumption].
      * intros u Hu. rewrite find_put. destruct (Nat.eqb_spec u t); [discriminate|].
        destruct Hu as [Hu|Hu]; [congruence|exact (V4 u Hu)].
      * discriminate.
    + destruct (V2 eq_refl) as [Es|Es]; rewrite Es in Hs; cbn [fstate_eqb] in Hs;
        unfold wait_loop in Hs; cbn [st fd thr] in Hs; try rewrite Es in Hs; cbn [fstate_eqb] in Hs;
        injection Hs as <- <-; (split; [|exact I]); split; cbn [st fd thr]; auto; try discriminate.
      all: try (intros u p; rewrite find_put; destruct (Nat.eqb_spec u t) as [E|E];
                [intros [= <-]; subst; split; [left; reflexivity|left; reflexivity]
                |intros Hu; destruct (V3 u p Hu); split; [right; assumption|assumption]]).
      all: try (intros u Hu; rewrite find_put; destruct (Nat.eqb_spec u t); [discriminate|];
                destruct Hu as [Hu|Hu]; [congruence|exact (V4 u Hu)]).
  - (* Wake *)
    destruct (find (thr m) t) as [p|] eqn:Hf.
    2:{ injection Hs as <- <-. split; [split; assumption|exact I]. }
    destruct p; try (injection Hs as <- <-; split; [split; assumption|exact I]).
    destruct (V3 t _ Hf) as [Hin _].
    unfold wait_loop in Hs. destruct c as [d|].
    + destruct (V1 d eq_refl) as [Es Ef]. rewrite Es in Hs. cbn [fstate_eqb] in Hs.
      unfold wait_leave in Hs. rewrite Es in Hs. cbn [fstate_eqb thr fd] in Hs.
      injection Hs as <- <-. split; [|exact I]. split; cbn [st fd thr].
      * intros d' E. split; [reflexivity|]. apply V1. exact E.
      * discriminate.
      * intros u p. rewrite find_put. destruct (Nat.eqb_spec u t) as [E|E].
        -- intros [= <-]. subst. split; [assumption|]. right. split; [reflexivity|discriminate].
        -- intros Hu. exact (V3 u p Hu).
      * intros u Hu. rewrite find_put. destruct (Nat.eqb_spec u t); [discriminate|exact (V4 u Hu)].
      * discriminate.
    + assert (Es : st m = ALLOC_PENDING) by (apply V5; [reflexivity|exists t; exact Hin]).
      rewrite Es in Hs. cbn [fstate_eqb] in Hs. injection Hs as <- <-. split; [|exact I].
      split; cbn [st fd thr]; auto; try discriminate.
      * intros u p. rewrite find_put. destruct (Nat.eqb_spec u t) as [E|E].
        -- intros [= <-]. subst. auto.
        -- intros Hu. exact (V3 u p Hu).
      * intros u Hu. rewrite find_put. destruct (Nat.eqb_spec u t); [discriminate|exact (V4 u Hu)].
  - (* Read *)
    destruct (find (thr m) t) as [p|] eqn:Hf.
    2:{ injection Hs as <- <-. split; [split; assumption|exact I]. }
    destruct p; try (injection Hs as <- <-; split; [split; assumption|exact I]).
    destruct (V3 t _ Hf) as [Hin [Q|[_ Q]]]; [discriminate|].
    destruct c as [d|]; [|contradiction].
    destruct (V1 d eq_refl) as [Es Ef]. unfold read_fd in Hs. rewrite Ef in Hs.
    injection Hs as <- <-. split; [|reflexivity].
    split; cbn [st fd thr].
    + intros d' [= <-]. auto.
    + discriminate.
    + intros u p. rewrite find_del. destruct (Nat.eqb_spec u t) as [E|E]; [discriminate|].
      intros Hu. destruct (V3 u p Hu). split; [|assumption]. apply rm_in. auto.
    + intros u Hu. apply rm_in in Hu. destruct Hu. rewrite find_del.
      destruct (Nat.eqb_spec u t); [contradiction|]. apply V4. assumption.
    + discriminate.
  - (* FlowInit *)
    destruct Hc as [Ec Hd]. injection Hs as <- <-. split; [|exact I].
    split; cbn [assign st fd thr].
    + intros d' [= <-]. split; [|reflexivity]. destruct (V2 Ec) as [E|E]; rewrite E; reflexivity.
    + discriminate.
    + intros u p Hu. destruct (V3 u p Hu) as [H1 [H2|[H2 H3]]]; [auto|]. split; [exact H1|]. right. split; [exact H2|discriminate].
    + exact V4.
    + discriminate.
  - (* FlowFini *)
    destruct Hc as (Hc & Hn & Ets). destruct c as [d|]; [|contradiction].
    assert (Hf : forall u, find (thr m) u = None).
    { intros u. destruct (find (thr m) u) as [p|] eqn:E; [|reflexivity].
      destruct (V3 u p E) as [Q _]. rewrite Ets in Q. contradiction. }
    rewrite Hf in Hs. destruct (V1 d eq_refl) as [Es Ef].
    unfold destroy_begin, destroy_loop in Hs. rewrite Es in Hs. cbn [fstate_eqb st fd thr] in Hs. injection Hs as <- <-. split; [|exact I].
    split; cbn [st fd thr]; try discriminate; auto.
    + intros u p. rewrite find_del. destruct (Nat.eqb u t); [discriminate|]. rewrite Hf. discriminate.
    + intros u Hu. rewrite Ets in Hu. contradiction.
    + intros _ (u & Hu). rewrite Ets in Hu. contradiction.
  - (* WakeD *)
    destruct (find (thr m) t) as [p|] eqn:Hf.
    2:{ injection Hs as <- <-. split; [split; assumption|exact I]. }
    destruct p; try (injection Hs as <- <-; split; [split; assumption|exact I]).
    destruct (V3 t _ Hf) as [_ [Q|[Q _]]]; discriminate.
Qed.

(* Every response of an orderly history is the descriptor of the flow that
   has the id, and nothing aborts. *)
Theorem flow_resp_partial : forall l,
  orderly true None [] l (snd (run fmap_init l)) ->
  answers_ok None l (snd (run fmap_init l)).
Proof.
  assert (G : forall l m c ts, Inv m c ts ->
    orderly true c ts l (snd (run m l)) -> answers_ok c l (snd (run m l))).
  { induction l as [|e l IH]; intros m c ts HI Ho; [exact I|].
    cbn [run] in *. destruct (step m e) as [m1 o] eqn:Es.
    assert (Hh : forall os, orderly true c ts (e :: l) (o :: os) ->
       Inv m1 (current c [e]) (inside ts [e] [o]) /\
       match o with Resp _ d => c = Some d | Abort => False | Nothing => True end).
    { intros os Q. cbn [orderly] in Q. destruct Q as [Q _]. apply (step_inv m c ts e o m1 HI Es).
      destruct e; auto. destruct Q as (Q1 & Q2 & Q3). auto. }
    destruct o as [t d| |]; destruct (run m1 l) as [m2 os] eqn:Er; cbn [snd] in *.
    - destruct (Hh _ Ho) as [HI' Ha]. cbn [answers_ok]. split; [exact Ha|].
      destruct Ho as [_ Ho]. specialize (IH m1 _ _ HI'). rewrite Er in IH. exact (IH Ho).
    - destruct (Hh _ Ho) as [HI' _]. cbn [answers_ok]. split; [exact I|].
      destruct Ho as [_ Ho]. specialize (IH m1 _ _ HI'). rewrite Er in IH. exact (IH Ho).
    - destruct (Hh _ Ho) as [_ []]. }
  intros l H. apply (G l fmap_init None []); [|exact H].
  split; cbn; try discriminate; auto; try contradiction.
  intros _ (t & []).
Qed.
Print Assumptions flow_resp_partial.

(* A thread that waits does get the answer when it next runs, for any flow
   that is allocated then. *)
Theorem flow_resp_progress : forall m t d,
  find (thr m) t = Some InWait -> st m = ALLOCATED -> fd m = Some d ->
  exists m', run m [Wake t; Read t] = (m', [Nothing; Resp t d]).
Proof.
  intros m t d Hf Es Ed. cbn [run step]. rewrite Hf. unfold wait_loop, wait_leave. rewrite Es.
  cbn [fstate_eqb thr fd st]. rewrite find_put, Nat.eqb_refl. unfold read_fd. cbn [fd st thr]. rewrite Ed.
  eexists. reflexivity.
Qed.
Print Assumptions flow_resp_progress.

(* If the flow comes and goes before the waiter runs, an assertion fails and
   the process is gone: [answers_ok] is false of a history that is orderly
   apart from that. *)
Theorem flow_resp_abort_refuted :
  exists l, orderly false None [] l (snd (run fmap_init l)) /\
    snd (run fmap_init l) = [Nothing; Nothing; Nothing; Abort] /\
    ~ answers_ok None l (snd (run fmap_init l)).
Proof.
  exists [Call 1; FlowInit 64; FlowFini 2; Wake 1].
  split; [|split; [reflexivity|cbn; tauto]].
  cbn. repeat split; try discriminate; try lia; intuition lia.
Qed.
Print Assumptions flow_resp_abort_refuted.

(* If flow_init fails for the flow, nobody tells the waiter: however often it
   is woken it waits on, until some other flow gets the id. *)
Theorem flow_resp_failed_init_refuted : forall n,
  snd (run fmap_init (Call 1 :: repeat (Wake 1) n)) = repeat Nothing (S n).
Proof.
  intros n.
  change (run fmap_init (Call 1 :: repeat (Wake 1) n)) with
    (let (m2, os) := run (Fmap None ALLOC_PENDING [(1, InWait)]) (repeat (Wake 1) n) in (m2, Nothing :: os)).
  assert (G : forall k m, find (thr m) 1 = Some InWait -> st m = ALLOC_PENDING ->
            snd (run m (repeat (Wake 1) k)) = repeat Nothing k).
  { induction k as [|k IH]; intros m Hf Es; [reflexivity|].
    cbn [repeat run step]. rewrite Hf. unfold wait_loop. rewrite Es. cbn [fstate_eqb].
    specialize (IH (Fmap (fd m) ALLOC_PENDING (put (thr m) 1 InWait))).
    destruct (run (Fmap (fd m) ALLOC_PENDING (put (thr m) 1 InWait)) (repeat (Wake 1) k)) as [m2 os] eqn:Er.
    cbn [snd] in *. rewrite IH; [reflexivity| |reflexivity]. cbn [thr]. rewrite find_put. reflexivity. }
  specialize (G n (Fmap None ALLOC_PENDING [(1, InWait)]) eq_refl eq_refl).
  destruct (run (Fmap None ALLOC_PENDING [(1, InWait)]) (repeat (Wake 1) n)) as [m2 os]. cbn [snd] in *.
  rewrite G. reflexivity.
Qed.
Print Assumptions flow_resp_failed_init_refuted.

(* The flow is ended while threads wait for it: the waiter is told -1, the
   thread that ends the flow waits for that and no longer, and the id is then
   unused: no descriptor, no flow. *)
Theorem destroy_releases_waiter : forall m w t,
  st m = ALLOC_PENDING -> find (thr m) w = Some InWait -> find (thr m) t = None ->
  exists m', run m [FlowFini t; WakeD t; Wake w; WakeD t] = (m', [Nothing; Nothing; Resp w (-1); Nothing]) /\
    st m' = INIT /\ fd m' = Some (-1)%Z /\
    find (thr m') w = None /\ find (thr m') t = None.
Proof.
  intros m w t Es Hw Ht.
  assert (Ewt : Nat.eqb w t = false).
  { destruct (Nat.eqb_spec w t) as [E|E]; [subst; congruence|reflexivity]. }
  assert (Etw : Nat.eqb t w = false) by (rewrite Nat.eqb_sym; exact Ewt).
  cbn [run step]. rewrite Ht. unfold destroy_begin, destroy_loop. rewrite Es.
  cbn [fstate_eqb thr fd st]. rewrite find_put, Nat.eqb_refl. cbn [fstate_eqb thr fd st].
  rewrite !find_put, Ewt, Hw. unfold wait_loop, wait_leave. cbn [fstate_eqb thr fd st].
  rewrite find_del, find_put, Etw, Nat.eqb_refl.
  eexists. split; [reflexivity|]. cbn [fstate_eqb thr fd st].
  rewrite !find_del, !Nat.eqb_refl, Ewt. do 3 (split; [reflexivity|]). reflexivity.
Qed.
Print Assumptions destroy_releases_waiter.

(* After a flow has ended its id belongs to no descriptor, whoever ended it. *)
Theorem gone_flow_has_no_descriptor : forall m t,
  st m = ALLOCATED -> find (thr m) t = None ->
  exists m', run m [FlowFini t] = (m', [Nothing]) /\ st m' = INIT /\ fd m' = Some (-1)%Z.
Proof.
  intros m t Es Ht. cbn [run step]. rewrite Ht. unfold destroy_begin, destroy_loop. rewrite Es.
  cbn [fstate_eqb thr fd st]. eexists. repeat split.
Qed.
Print Assumptions gone_flow_has_no_descriptor.

(* The states of both theorems are met: a waiter, and an allocated flow. *)
Example destroy_cases :
  let m := fst (run fmap_init [Call 1; Wake 1]) in
  (st m = ALLOC_PENDING /\ find (thr m) 1 = Some InWait /\ find (thr m) 2 = None) /\
  let m := fst (run fmap_init [Call 1; FlowInit 64]) in
  st m = ALLOCATED /\ find (thr m) 2 = None.
Proof. vm_compute. repeat split. Qed.

(* An orderly history with two waiters, an idle wake-up and reuse of the id. *)
Example flow_resp_history :
  let l := [Call 1; Wake 1; Call 2; FlowInit 64; Wake 2; Read 2; Wake 1; Read 1; FlowFini 3;
            Call 1; FlowInit 70; Wake 1; Read 1] in
  orderly true None [] l (snd (run fmap_init l)) /\
  filter (fun o => match o with Resp _ _ => true | _ => false end) (snd (run fmap_init l))
  = [Resp 2 64; Resp 1 64; Resp 1 70].
Proof.
  split; [|reflexivity]. vm_compute.
  repeat split; try discriminate; intuition discriminate.
Qed.
