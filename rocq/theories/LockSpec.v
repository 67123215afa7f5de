(** What a user sees of the lock of the IRMd. *)
From Coq Require Import List Bool Arith.
From Verif Require Import LockModel.
Import ListNotations.

(** The IRMd with this pid runs: it has taken the lock and has made the pool. *)
Definition running (w : world) (p : nat) : Prop := exists o u s i, procs w p = Irm o u s (Run i).
Definition at_most_one (w : world) : Prop := forall p q, running w p -> running w q -> p = q.
(** The IRMd with this pid has been started and does not run yet. *)
Definition is_starting (x : proc) : bool :=
  match x with
  | Irm _ _ _ (Run _ | RmPool _ | RmLock _ | Ending) => false
  | Irm _ _ _ _ => true
  | _ => false
  end.
Definition nobody_starts (w : world) : Prop := forall q, is_starting (procs w q) = false.
Definition no_irmd (w : world) : Prop := forall q, procs w q = Absent \/ procs w q = Other.

(** A history from the boot of the machine, each event of which meets [ok]. *)
Inductive history (ok : world -> event -> Prop) : world -> Prop :=
| h_boot : history ok boot
| h_step w e w' : history ok w -> ok w e -> step e w = Some w' -> history ok w'.
Definition anything (w : world) (e : event) : Prop := True.
(** No IRMd is started while another is starting. *)
Definition one_by_one (w : world) (e : event) : Prop :=
  match e with Start _ _ => nobody_starts w | _ => True end.
(** No IRMd ends. *)
Definition none_ends (w : world) (e : event) : Prop :=
  match e with
  | Stop _ | Fail _ => False
  | Die p => procs w p = Other
  | _ => True
  end.
(** Only processes that are not an IRMd are killed. *)
Definition no_kill (w : world) (e : event) : Prop :=
  match e with Die p => procs w p = Other | _ => True end.
(** An IRMd is not killed while it makes the lock file. *)
Definition making (x : proc) : bool :=
  match x with Irm _ _ _ (Trunc _ | WritePid _) => true | _ => false end.
Definition not_making (w : world) (e : event) : Prop :=
  one_by_one w e /\ match e with Die p => making (procs w p) = false | _ => True end.

(** p is started and takes its steps, and nothing else happens. *)
Definition start_alone (p m k : nat) : list event := Start p m :: repeat (Step p) k.
