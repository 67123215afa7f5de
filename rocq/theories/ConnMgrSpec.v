(** What the properties of the connection manager are about; histories are
    lists of events, latest first. *)
From Coq Require Import NArith ZArith List Bool.
From Verif Require Import ConnMgrModel.
Import ListNotations.

(** The connections accepted for the component, latest first, and those
    that it was given. *)
Fixpoint accepted (h : list event) : list key :=
  match h with
  | [] => []
  | Accept k _ :: h' => k :: accepted h'
  | _ :: h' => accepted h'
  end.
Fixpoint handed (h : list event) : list key :=
  match h with
  | [] => []
  | e :: h' => match outcome e h' with Handed k => k :: handed h' | _ => handed h' end
  end.
Fixpoint connected (h : list event) : list key :=
  match h with
  | [] => []
  | Connect k _ _ :: h' => k :: connected h'
  | _ :: h' => connected h'
  end.
Fixpoint closed (h : list event) : list key :=
  match h with
  | [] => []
  | e :: h' => match outcome e h' with Closed k _ => k :: closed h' | _ => closed h' end
  end.

(** The flow descriptor of a connection. *)
Fixpoint fd_of (k : key) (h : list event) : option Z :=
  match h with
  | [] => None
  | Accept j fd :: h' => if Nat.eqb j k then Some fd else fd_of k h'
  | Connect j fd _ :: h' => if Nat.eqb j k then Some fd else fd_of k h'
  | _ :: h' => fd_of k h'
  end.

(** The descriptors in use: of connections that were made and not closed. *)
Definition in_use (fd : Z) (h : list event) : Prop :=
  exists k, (In k (accepted h) \/ In k (connected h)) /\ ~ In k (closed h) /\ fd_of k h = Some fd.

(** What the rest of the system guarantees: list elements are new, a new
    flow has a descriptor that is not in use, and a thread is in one call
    at a time. *)
Definition fresh (k : key) (h : list event) : Prop := ~ In k (accepted h) /\ ~ In k (connected h).
Inductive plausible : list event -> Prop :=
| pl_nil : plausible []
| pl_accept k fd h : plausible h -> fresh k h -> ~ in_use fd h -> plausible (Accept k fd :: h)
| pl_connect k fd d h : plausible h -> fresh k h -> ~ in_use fd h -> plausible (Connect k fd d :: h)
| pl_wait h : plausible h -> plausible (Wait :: h)
| pl_find t d h : plausible h -> taken t (busy (run h)) = None -> plausible (Find t d :: h)
| pl_remove t h : plausible h -> plausible (Remove t :: h)
| pl_event fd h : plausible h -> plausible (FlowEvent fd :: h).

(** The destination of a connection. *)
Fixpoint dst_of (k : key) (h : list event) : option name :=
  match h with
  | [] => None
  | Connect j _ d :: h' => if Nat.eqb j k then Some d else dst_of k h'
  | _ :: h' => dst_of k h'
  end.

(** The component has the connection: it was given to it or made by it,
    and not closed. *)
Definition open (k : key) (h : list event) : Prop :=
  (In k (handed h) \/ In k (connected h)) /\ ~ In k (closed h).
