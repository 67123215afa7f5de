(** What C92 says about the listeners of an IPCP. *)
From Coq Require Import List Bool Arith.
From Verif Require Import NotifierModel.
Import ListNotations.

(** The object a callback listens with after a history, and how long the
    history was when it began to listen. *)
Fixpoint listening (h : list op) (c : nat) : option (nat * nat) :=
  match h with
  | [] => None
  | Reg c' o :: h =>
      if c' =? c then match listening h c with Some x => Some x | None => Some (o, length h) end
      else listening h c
  | Unreg c' :: h => if c' =? c then None else listening h c
  | Event _ :: h => listening h c
  end.

(** Of two listeners that are both in the list the one that comes first. *)
Definition before (ls : list listener) (l l' : listener) : Prop :=
  exists a b d, ls = a ++ l :: b ++ l' :: d.

(** What a listener was called with, in order. *)
Fixpoint seen (c : nat) (tr : list call) : list nat :=
  match tr with
  | [] => []
  | (l, e) :: tr => if cb l =? c then e :: seen c tr else seen c tr
  end.

(** What the connection manager makes of an event of a flow. *)
Inductive meant : nat -> nat -> Prop :=
| meant_up : meant FLOW_UP CONN_UP
| meant_down : meant FLOW_DOWN CONN_DOWN
| meant_dealloc : meant FLOW_DEALLOC CONN_DEL.
