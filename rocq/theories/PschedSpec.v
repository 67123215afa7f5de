(** What C98 says about the packet scheduler. *)
From Coq Require Import List Arith Bool.
From Verif Require Import PschedModel.
Import ListNotations.

(** The packets written to a flow, oldest first. *)
Fixpoint written (h : list ev) (f : nat) : list nat :=
  match h with
  | [] => []
  | Write g p :: h => if g =? f then written h f ++ [p] else written h f
  | _ :: h => written h f
  end.
(** The packets of a flow that the callback got, oldest first. *)
Definition handed (s : st) (f : nat) : list nat :=
  map snd (filter (fun x => snd (fst x) =? f) (rev (out s))).
(** Those a thread has in hand. *)
Definition hands (s : st) (f : nat) : list nat :=
  flat_map (fun a => match held a with Some (g, p) => if g =? f then [p] else [] | None => [] end) (thrs s).

(** Everybody did what they had to, as far as a flow is concerned: every writer
    notified, it is not being added, and no event for it waits, in its set or
    with a thread. *)
Definition still (s : st) (f : nat) : Prop :=
  unsaid s f = 0 /\ checking s f = false /\ (forall c, ~ In f (evq s c)) /\
  Forall (fun a => ~ In f (evs a) /\ cur a <> Some f) (thrs s).

(** A history in which flows are added before a second packet waits. *)
Fixpoint added_early (cube : nat -> nat) (ts : list nat) (h : list ev) : Prop :=
  match h with
  | [] => True
  | e :: h => added_early cube ts h /\
      match e with
      | Add f => forall s, run cube ts h = Ok s -> length (ring s f) <= 1
      | _ => True
      end
  end.
(** A history in which no flow is deallocated that a thread is about to read. *)
Fixpoint ended_late (cube : nat -> nat) (ts : list nat) (h : list ev) : Prop :=
  match h with
  | [] => True
  | e :: h => ended_late cube ts h /\
      match e with
      | Fini f => forall s, run cube ts h = Ok s -> Forall (fun a => cur a <> Some f) (thrs s)
      | _ => True
      end
  end.
(** A step that leaves the membership of a flow alone. *)
Definition stays (f : nat) (e : ev) : Prop := e <> Add f /\ e <> Del f /\ e <> Fini f.
(** The steps of the threads, and of those who are in the middle of writing to
    or adding a flow. *)
Definition inner (e : ev) : Prop :=
  match e with Notify _ | Check _ | Fetch _ | Next _ | Read _ | Call _ => True | _ => False end.
