(** What must hold of the start, the attempts to join a layer and the end of an
    IPCP, over the calls that it makes. *)
From Coq Require Import List Bool.
From Verif Require Import BootModel.
Import ListNotations.

(** What is held after some calls, given what was held before. *)
Fixpoint held (h : list res) (es : list ev) : list res :=
  match es with
  | [] => h
  | Got r :: t => held (r :: h) t
  | Gone r :: t => held (drop r h) t
  | Cancel _ :: t => held h t
  end.
(** How many [r] are held. *)
Fixpoint count (r : res) (h : list res) : nat :=
  match h with [] => 0 | x :: t => (if res_eqb r x then 1 else 0) + count r t end.
(** Both hold the same things, each as often. *)
Definition same (a b : list res) : Prop := forall r, count r a = count r b.
(** As [same], but for the things in [l]. *)
Definition same_but (l : list res) (a b : list res) : Prop := forall r, ~ In r l -> count r a = count r b.

(** Nothing is released that is not held (other than the things in [l]). *)
Definition released_once_but (l : list res) (h : list res) (es : list ev) : Prop :=
  forall pre r post, es = pre ++ Gone r :: post -> ~ In r l -> In r (held h pre).
Definition released_once := released_once_but [].
(** Nothing is made that is still held: its old content would be lost. *)
Definition made_once (h : list res) (es : list ev) : Prop :=
  forall pre r post, es = pre ++ Got r :: post -> ~ In r (held h pre).

(** What must be there as long as a thread runs, a listener is registered or a file
    of the RIB is there. *)
Definition needs (r : res) : list res :=
  match r with
  (* flow_acceptor puts a new connection in the list of its component: connmgr.c:103-128 *)
  | CmThr => [CMtx CDt; CMtx CEnr; CMtx CMgmt]
  (* these wait for a connection: connmgr_wait, and tell the others: notifier_event *)
  | EnThr => [CMtx CEnr; CCond CEnr]
  | DtThr => [CMtx CDt; CCond CDt; Notif]
  | LsLis => [CMtx CMgmt; CCond CMgmt; Notif]
  | LsUpd => [DbLock]
  | LsRd => [DbLock; LsSet]
  | Ri i => [Pff i; Graph; DbLock; RiLock]
  | LsRib => [DbLock; RibFs]
  | DtRib => [StatLocks; DtLock; RibFs]
  | FaRib => [FaLock; RibFs]
  | RibInfo => [RibFs; StateMtx]
  | CmNotif | LsNotif | BNotif => [Notif]
  | DtNotif => [Notif; DtPsched]
  | DhtNotif => [Notif; DhtMem]
  | Comp 1 => [DhtMem]
  | DtPsched => [Pff 0; Pff 1; Pff 2; DtLock; StatLocks]
  | FaPsched => [Pff 0; Pff 1; Pff 2; FaLock]
  | FaThr => [FaLock; FaMtx; FaCond]
  | DhtRun => [DhtMem; DhtLock; DhtMtx; DhtCond; DhtTpm; Pff 0; Pff 1; Pff 2]
  | DhtThr => [DhtMem; DhtLock; DhtBkt; DhtId; Pff 0; Pff 1; Pff 2]
  | BRd => [BLock; BSet]
  | TpmRun => [Tpm; CmdLock; CmdCond; StateMtx]
  | Acceptor => [SockFd; CmdLock; CmdCond; StateMtx]
  | EnFlow => [CMtx CEnr]
  | _ => []
  end.
(** For a broadcast IPCP, which has no management component: *)
Definition bneeds (r : res) : list res :=
  match r with
  | CmThr => [CMtx CDt; CMtx CEnr]
  | BLis => [CMtx CDt; CCond CDt; Notif]
  | _ => needs r
  end.
(** At no moment is something held that misses what it needs (other than the pairs in [l]). *)
Definition complete_but (nd : res -> list res) (l : list (res * res)) (h : list res) (es : list ev) : Prop :=
  forall pre post, es = pre ++ post ->
  forall r u, In r (held h pre) -> In u (nd r) -> ~ In (r, u) l -> In u (held h pre).
Definition complete nd := complete_but nd [].

Definition is_thread (r : res) : bool :=
  match r with CmThr | EnThr | DtThr | FaThr | LsUpd | LsRd | LsLis | DhtRun | DhtThr | BRd | BLis | TpmRun | Acceptor => true | _ => false end.
(** A thread is waited for only after it was told to stop: it does not end by itself. *)
Definition told (es : list ev) : Prop :=
  forall pre r post, es = pre ++ Gone r :: post -> is_thread r = true ->
  exists p q, pre = p ++ Cancel r :: q /\ ~ In (Got r) q.

(** A process that has started and is in no layer. *)
Definition idle : list res :=
  [Log; SockPath; SockFd; SockFile; StateMtx; StateCond; AllocLock; AllocCond; CmdLock; CmdCond;
   RibFs; RibInfo; Tpm; TpmRun; Acceptor; Notif; CmNotif; CMtx CEnr; CCond CEnr].
(** What being in a layer adds. *)
Definition unicast_parts : list res :=
  [AddrAuth; CaOps; CMtx CDt; CCond CDt; CMtx CMgmt; CCond CMgmt;
   Graph; LsNotif; DbLock; RiLock; LsSet; LsUpd; LsRd; LsLis; LsRib;
   Pff 0; Pff 1; Pff 2; Ri 0; Ri 1; Ri 2; DtLock; ResFds; StatLocks; DtRib; DtPsched; DtNotif; DtThr;
   FaLock; FaMtx; FaCond; FaRib; Comp 0; FaPsched; FaThr;
   DhtMem; DhtLock; DhtMtx; DhtCond; DhtBmp; DhtTpm; DhtRun; Comp 1; DhtNotif; EnThr; CmThr].
Definition dht_parts : list res := [DhtId; DhtBkt; DhtThr].
Definition parts (c : cmd) : list res := match c with Boot => unicast_parts ++ dht_parts | Enroll => unicast_parts end.
Definition broadcast_parts : list res := [BNotif; BLock; BSet; BRd; BLis; CMtx CDt; CCond CDt; EnThr; CmThr].

(** The variables of a process that has started. *)
Definition started (v : view) : Prop := exists ans es rest, run (main_start view0) ans = (Some (true, v), es, rest).
