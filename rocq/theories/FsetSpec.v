(* What a collection of flow sets is: each flow is in at most one set, and
   each set has a list of events that were not collected yet. *)
From Coq Require Import ZArith List Bool.
From Verif Require Import FsetModel.
Import ListNotations.
Open Scope Z_scope.

Record sets : Type := Sets { member : Z -> option Z; pending : Z -> list fevt }.

Definition no_sets : sets := Sets (fun _ => None) (fun _ => []).

Definition in_set (s : sets) (idx id : Z) : bool :=
  match member s id with Some i => i =? idx | None => false end.

Definition spec_call (s : sets) (c : call) : sets * answer :=
  match c with
  | Zero idx => (Sets (fun id => if in_set s idx id then None else member s id)
                      (fun i => if i =? idx then [] else pending s i), Done)
  | Add idx id => match member s id with
                  | Some _ => (s, Added false)
                  | None => (Sets (fun i => if i =? id then Some idx else member s i) (pending s), Added true)
                  end
  | Del idx id => (Sets (fun i => if (i =? id) && in_set s idx id then None else member s i) (pending s), Done)
  | Has idx id => (s, HasIt (in_set s idx id))
  | Notify id ev => match member s id with
                    | None => (s, Done)
                    | Some idx => (Sets (member s) (fun i => if i =? idx then pending s i ++ [(id, ev)]
                                                             else pending s i), Done)
                    end
  | Wait idx => match pending s idx with
                | [] => (s, Events None)
                | l => (Sets (member s) (fun i => if i =? idx then [] else pending s i), Events (Some l))
                end
  end.

Fixpoint spec_run (s : sets) (l : list call) : sets * list answer :=
  match l with
  | [] => (s, [])
  | c :: l' => let (s1, a) := spec_call s c in let (s2, r) := spec_run s1 l' in (s2, a :: r)
  end.

(* The arguments the callers may give: dev.c gives queues from a bitmap of
   PROG_MAX_FQUEUES, and flow ids below SYS_MAX_FLOWS. *)
Definition good_call (c : call) : Prop :=
  match c with
  | Zero i | Wait i => 0 <= i < PROG_MAX_FQUEUES
  | Add i id | Del i id | Has i id => 0 <= i < PROG_MAX_FQUEUES /\ 0 <= id < SYS_MAX_FLOWS
  | Notify id _ => 0 <= id < SYS_MAX_FLOWS
  end.

(* At no time are there more than n events waiting in one set. *)
Fixpoint at_most (n : Z) (s : sets) (l : list call) : Prop :=
  (forall i, Z.of_nat (length (pending s i)) <= n) /\
  match l with [] => True | c :: l' => at_most n (fst (spec_call s c)) l' end.
