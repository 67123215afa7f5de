(** Model of the packet scheduler of the unicast IPCP,
    src/ipcpd/unicast/psched.c, through which all packets that arrive on a flow
    reach the data-transfer component (dt.c:709) and the flow allocator
    (fa.c:691): the threads that wait for events of the flows of one QoS cube,
    with fset_add, fset_del, fevent and fqueue_next (src/lib/dev.c:1512-1728) and
    the flow set and rings below them (shm_flow_set.c, shm_rbuff_pthr.c).

    One step is one critical section, so a history is any interleaving of the
    writers (other processes), the threads and the calls that add, remove and
    deallocate flows.  A flow is one allocation: descriptors are not used again
    (see DevFlowModel and LocalModel for that).  Only the events for packets are
    modelled; the others call the notifier (NotifierModel).  The queue of a set
    does not overrun (FsetModel) and rings do not fill (RbuffModel).  Flows have
    no retransmission (qos_np1, dt.c and fa.c). *)
From Coq Require Import List Arith Bool.
Import ListNotations.

(* psched.c:67-119 packet_reader, one thread.  [qc]: its cube; [evs]: the events
   it fetched and did not look at yet; [cur]: the flow fqueue_next returned,
   before the packet is read; [held]: the packet, before the callback. *)
Record thr := Thr { qc : nat; evs : list nat; cur : option nat; held : option (nat * nat) }.

(* [ring]: the packets in the receive ring of a flow; [unsaid]: those whose
   writer did not notify yet; [inset]: the flow is in the set of its cube
   (mtable, shm_flow_set.c:225-262); [checking]: fset_add is between adding and
   looking for packets (dev.c:1537-1541); [evq]: the events of the set of a
   cube; [out]: the calls of the callback, latest first: cube, flow, packet. *)
Record st := St {
  live : nat -> bool; ring : nat -> list nat; unsaid : nat -> nat; inset : nat -> bool; checking : nat -> bool;
  evq : nat -> list nat; thrs : list thr; out : list (nat * nat * nat)
}.

Definition upd {A} (f : nat -> A) (k : nat) (v : A) : nat -> A := fun x => if x =? k then v else f x.

Inductive ev :=
| Write (f p : nat)  (* shm_rbuff_write *)
| Notify (f : nat)   (* shm_flow_set_notify after it *)
| Add (f : nat)      (* fset_add: shm_flow_set_add *)
| Check (f : nat)    (* fset_add: the rest *)
| Del (f : nat)      (* psched_del *)
| Fini (f : nat)     (* flow_fini: the flow is gone *)
| Fetch (t : nat)    (* fevent *)
| Next (t : nat)     (* fqueue_next *)
| Read (t : nat)     (* sched->read *)
| Call (t : nat).    (* sched->callback *)

Inductive res := Ok (s : st) | Crash | No.  (* No: the step is not possible *)

(** The thread with a number, with those before and after it. *)
Fixpoint at_ (t : nat) (l : list thr) : option (list thr * thr * list thr) :=
  match l, t with
  | [], _ => None
  | a :: l, O => Some ([], a, l)
  | a :: l, S t => match at_ t l with Some (l1, b, l2) => Some (a :: l1, b, l2) | None => None end
  end.
Definition set_thr (s : st) (l1 : list thr) (a : thr) (l2 : list thr) : st :=
  St (live s) (ring s) (unsaid s) (inset s) (checking s) (evq s) (l1 ++ a :: l2) (out s).
Definition with_thr (s : st) (t : nat) (k : list thr -> thr -> list thr -> res) : res :=
  match at_ t (thrs s) with Some (l1, a, l2) => k l1 a l2 | None => No end.

Section Psched.
Variable cube : nat -> nat.   (* ipcp_flow_get_qoscube *)

(* shm_flow_set.c:283-310: an event for a flow that is in no set is lost *)
Definition notify (s : st) (f : nat) : nat -> list nat :=
  if inset s f then upd (evq s) (cube f) (evq s (cube f) ++ [f]) else evq s.

Definition step (s : st) (e : ev) : res :=
  match e with
  | Write f p =>
      if live s f
      then Ok (St (live s) (upd (ring s) f (ring s f ++ [p])) (upd (unsaid s) f (S (unsaid s f))) (inset s) (checking s) (evq s) (thrs s) (out s))
      else No
  | Notify f =>
      match unsaid s f with
      | O => No
      | S n => Ok (St (live s) (ring s) (upd (unsaid s) f n) (inset s) (checking s) (notify s f) (thrs s) (out s))
      end
  (* psched.c:219-229, dev.c:1518-1536 *)
  | Add f =>
      if live s f && negb (inset s f) && negb (checking s f)
      then Ok (St (live s) (ring s) (unsaid s) (upd (inset s) f true) (upd (checking s) f true) (evq s) (thrs s) (out s))
      else No
  (* dev.c:1540-1541: one event, however many packets there are *)
  | Check f =>
      if checking s f
      then Ok (St (live s) (ring s) (unsaid s) (inset s) (upd (checking s) f false)
                  (match ring s f with [] => evq s | _ => notify s f end) (thrs s) (out s))
      else No
  (* psched.c:231-242, dev.c:1555-1574 *)
  | Del f =>
      Ok (St (live s) (ring s) (unsaid s) (upd (inset s) f false) (checking s) (evq s) (thrs s) (out s))
  (* dev.c:388-440; the flow also leaves its set here, which psched_del does in
     the code: events of a flow that is gone are passed over anyway *)
  | Fini f =>
      Ok (St (upd (live s) f false) (ring s) (unsaid s) (upd (inset s) f false) (checking s) (evq s) (thrs s) (out s))
  (* dev.c:1689-1726, shm_flow_set.c:313-371: all events of the set *)
  | Fetch t =>
      with_thr s t (fun l1 a l2 =>
        match evs a, cur a, held a, evq s (qc a) with
        | [], None, None, e :: es =>
            Ok (St (live s) (ring s) (unsaid s) (inset s) (checking s) (upd (evq s) (qc a) [])
                   (l1 ++ Thr (qc a) (e :: es) None None :: l2) (out s))
        | _, _, _, _ => No
        end)
  (* dev.c:1652-1676; the events of a flow that is gone are passed over (1612) *)
  | Next t =>
      with_thr s t (fun l1 a l2 =>
        match evs a, cur a, held a with
        | f :: es, None, None => Ok (set_thr s l1 (Thr (qc a) es (if live s f then Some f else None) None) l2)
        | _, _, _ => No
        end)
  (* psched.c:106-108; ipcp_flow_read and np1_flow_read assert that there is a
     flow (dev.c:1882, 1942); without a packet: -EAGAIN *)
  | Read t =>
      with_thr s t (fun l1 a l2 =>
        match cur a with
        | Some f =>
            if live s f then
              match ring s f with
              | [] => Ok (set_thr s l1 (Thr (qc a) (evs a) None None) l2)
              | p :: r =>
                  Ok (St (live s) (upd (ring s) f r) (unsaid s) (inset s) (checking s) (evq s)
                         (l1 ++ Thr (qc a) (evs a) None (Some (f, p)) :: l2) (out s))
              end
            else Crash
        | None => No
        end)
  (* psched.c:110 *)
  | Call t =>
      with_thr s t (fun l1 a l2 =>
        match held a with
        | Some (f, p) =>
            Ok (St (live s) (ring s) (unsaid s) (inset s) (checking s) (evq s)
                   (l1 ++ Thr (qc a) (evs a) None None :: l2) ((qc a, f, p) :: out s))
        | None => No
        end)
  end.

(* psched.c:121-199 psched_create; [ts]: the cubes of the threads *)
Definition init (ts : list nat) : st :=
  St (fun _ => true) (fun _ => []) (fun _ => 0) (fun _ => false) (fun _ => false) (fun _ => [])
     (map (fun c => Thr c [] None None) ts) [].

(** The state after a history, latest event first. *)
Fixpoint run (ts : list nat) (h : list ev) : res :=
  match h with
  | [] => Ok (init ts)
  | e :: h => match run ts h with Ok s => step s e | r => r end
  end.
End Psched.

(* src/ipcpd/CMakeLists.txt: IPCP_SCHED_THR_MUL is 2, QOS_CUBE_MAX 3; psched.c:151 *)
Definition default_threads : list nat := map (fun i => i mod 3) (seq 0 6).
