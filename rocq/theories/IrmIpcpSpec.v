(** What a user expects of creating and destroying an IPCP.  Only the states, the steps and
    the processes are taken from the model. *)
From Coq Require Import List ZArith Bool.
Import ListNotations.
From Verif Require Import IrmIpcpModel.

(** [s] is a state the system can be in after [l]. *)
Definition after (l : list act) (s : st) : Prop := exec init l = Some s.

(** The request is answered. *)
Definition answered (s : st) : Prop := exists ok, at_ s = PDone ok.
Definition crashed (s : st) : Prop := at_ s = PAbort \/ at_ s = PSegv.

(** There is an IPCP: it is in the registry as ready, to be ended with the IRMd, and it said
    itself that it was ready. *)
Definition whole (l : list act) (s : st) : Prop :=
  entry s = Some IOper /\ spawned s = true /\ In CReport l.
(** There is none: nothing in the registry, and no process, not even one to wait for. *)
Definition nothing (s : st) : Prop :=
  entry s = None /\ spawned s = false /\ (proc s = NoChild \/ proc s = Reaped).

(** Steps in which no one else touches this IPCP. *)
Definition other (a : act) : Prop := In a [OBootstrap; ORemove; OReap].
(** Steps in which something fails: a call of the IRMd, the time, or the new process. *)
Definition fault (a : act) : Prop :=
  In a [ASpawn false; ACreate false; ATimeout; CFail; CQuit; CCrash; CStop].
(** Steps that end the new process. *)
Definition ends (a : act) : Prop := In a [CStop; CCrash].

(** * Destroying *)
Local Open Scope Z_scope.
(** Exactly the process [n] is gone, from the machine and from the registry. *)
Definition only_gone (n : Z) (s s' : sys) : Prop :=
  (forall p, In p (procs s') <-> In p (procs s) /\ pid p <> n) /\
  (forall m, In m (ipcps s') <-> In m (ipcps s) /\ m <> n) /\
  (forall m, In m (regd s') <-> In m (regd s) /\ m <> n) /\
  (forall m, In m (children s') <-> In m (children s) /\ m <> n).
