(** What users of the IRM daemon rely on about its registry, in terms of the
    flows, names, processes and programs it lists. *)

From Coq Require Import List NArith ZArith String.
From Verif Require Import RegModel.
Import ListNotations.

(** The life cycle of a flow. *)
Inductive life : fstate -> fstate -> Prop :=
| life_alloc : life FInit FAllocPending
| life_accept : life FInit FAcceptPending
| life_alloc_ok : life FAllocPending FAllocated
| life_accept_ok : life FAcceptPending FAllocated
| life_alloc_no : life FAllocPending FDeallocated
| life_accept_no : life FAcceptPending FDeallocated
| life_close : life FAllocated FDeallocPending
| life_closed : life FDeallocPending FDeallocated.

(** The event is the end of a wait for flow [tag] by time-out. *)
Definition times_out (e : ev) (tag : N) : Prop :=
  (exists id, e = EWakeAllocated id tag true) \/
  (exists id, e = EWakeAccepted id tag true).

(** The ids in use. *)
Definition ids (r : reg) : list Z := map f_id (r_flows r).

(** The ids a registry can hand out. *)
Definition an_id (id : Z) : Prop := (1 <= id <= 10239)%Z.

(** Process [pid] is registered with [s] among its names. *)
Definition proc_has (r : reg) (pid : N) (s : string) : Prop :=
  exists p, In p (r_procs r) /\ p_pid p = pid /\ In s (p_names p).

(** Name [s] is registered and lists process [pid]. *)
Definition name_has (r : reg) (s : string) (pid : N) : Prop :=
  exists n, In n (r_names r) /\ n_name n = s /\ In pid (n_procs n).

(** Process [pid] is waiting for flows to name [s]. *)
Definition waits (r : reg) (s : string) (pid : N) : Prop :=
  exists n, In n (r_names r) /\ n_name n = s /\ In pid (n_active n).

(** Process [pid] waits for flows to name [s] in every state of the history
    [es] that starts in [r], the first and the last one included. *)
Definition waits_through (r : reg) (es : list ev) (s : string) (pid : N) : Prop :=
  forall es1 es2 r1, es = es1 ++ es2 -> run r es1 = Ok r1 -> waits r1 s pid.

(** In the history [es] from [r] no process calls accept while one of its
    accepts is still waiting. *)
Fixpoint one_accept (r : reg) (es : list ev) : Prop :=
  match es with
  | [] => True
  | e :: t =>
      match e with
      | EWaitAccepted i => forall s, ~ waits r s (i_npid i)
      | _ => True
      end /\
      match step r e with
      | Ok (r', _) => one_accept r' t
      | Abort => True
      end
  end.
