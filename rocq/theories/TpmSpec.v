(** What C91 says about the workers of a thread pool. *)
From Coq Require Import NArith List Bool Arith.
From Verif Require Import TpmModel.
Import ListNotations.

(** The workers that wait for a request or have just taken one, and were not
    told to end. *)
Definition ready (s : st) : nat :=
  length (filter (fun t => match ph s t with Waiting | Has => negb (cancelled s t) | _ => false end)
                 (seq 0 (next s))).
(** The workers that run. *)
Definition workers (s : st) : nat :=
  length (filter (fun t => match ph s t with Gone => false | _ => true end) (seq 0 (next s))).

(** The pool was not stopped. *)
Definition not_stopped (h : list ev) : Prop := ~ In Stop h.

(** No worker that was told to end has announced a request. *)
Fixpoint timely (min : N) (inc : nat) (h : list ev) : Prop :=
  match h with
  | [] => True
  | e :: h => timely min inc h /\
      match e, run min inc h with
      | Dec t, Some s => cancelled s t = false
      | _, _ => True
      end
  end.
