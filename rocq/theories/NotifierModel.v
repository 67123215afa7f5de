(** Model of the notifier of the IPCPs, src/lib/notifier.c, and of the one
    listener that raises events itself, src/ipcpd/common/connmgr.c:195-225.

    Callbacks and objects are numbers.  Running out of memory is not
    modelled. *)
From Coq Require Import List Bool Arith.
Import ListNotations.

(* notifier.c:33-37 struct listener *)
Record listener := Lst { cb : nat; obj : nat }.

(* notifier.c:90-120 notifier_reg: a callback that is there already is
   refused (-EPERM); a new listener comes last *)
Definition reg (c o : nat) (ls : list listener) : list listener * bool :=
  if existsb (fun l => cb l =? c) ls then (ls, false) else (ls ++ [Lst c o], true).

(* notifier.c:122-138 notifier_unreg: the first listener with the callback *)
Fixpoint unreg (c : nat) (ls : list listener) : list listener :=
  match ls with
  | [] => []
  | l :: ls => if cb l =? c then ls else l :: unreg c ls
  end.

(** What a callback does with the notifier. *)
Inductive act := Raise (e : nat) | Register | Unregister.

(** A call of a callback: the listener and the event. *)
Definition call := (listener * nat)%type.
Inductive res :=
| Done (tr : list call)   (* notifier_event returned; the calls, oldest first *)
| Hang                    (* the callback waits for the write lock its own thread keeps it from *)
| Deep.                   (* nested deeper than asked for: not an outcome of the code *)

Definition bind (r : res) (k : list call -> res) : res :=
  match r with Done tr => k tr | x => x end.

Section Event.
(* what the callback of a listener does when it is called with an event *)
Variable react : listener -> nat -> list act.

(* notifier.c:71-88 notifier_event: the read lock is held while the callbacks
   are called, in the order of the list.  Read locks nest (the default on
   Linux prefers readers).  [n] bounds the depth of the nesting. *)
Fixpoint event (n : nat) (all : list listener) (e : nat) : res :=
  match n with
  | O => Deep
  | S n =>
      let fix acts (l : list act) : res :=
        match l with
        | [] => Done []
        | Raise e' :: l => bind (event n all e') (fun t1 => bind (acts l) (fun t2 => Done (t1 ++ t2)))
        | Register :: _ | Unregister :: _ => Hang
        end in
      let fix each (ls : list listener) : res :=
        match ls with
        | [] => Done []
        | l :: ls => bind (acts (react l e)) (fun t1 => bind (each ls) (fun t2 => Done ((l, e) :: t1 ++ t2)))
        end in
      each all
  end.
End Event.

(** A history of calls from outside, latest first. *)
Inductive op := Reg (c o : nat) | Unreg (c : nat) | Event (e : nat).
Fixpoint listeners (h : list op) : list listener :=
  match h with
  | [] => []
  | Reg c o :: h => fst (reg c o (listeners h))
  | Unreg c :: h => unreg c (listeners h)
  | Event _ :: h => listeners h
  end.

(* connmgr.h:31-38 *)
Definition CONN_DEL : nat := 209.
Definition CONN_UP : nat := 211.
Definition CONN_DOWN : nat := 212.
Definition FLOW_UP : nat := 213.
Definition FLOW_DOWN : nat := 214.
Definition FLOW_DEALLOC : nat := 215.
(* connmgr.c:195-225 handle_event, of a flow of a connection the connection
   manager knows; the other listeners (dt.c, link-state.c, dht.c,
   broadcast/dt.c) raise no events *)
Definition react_ipcp (connmgr : nat) (l : listener) (e : nat) : list act :=
  if cb l =? connmgr then
    if e =? FLOW_UP then [Raise CONN_UP]
    else if e =? FLOW_DOWN then [Raise CONN_DOWN]
    else if e =? FLOW_DEALLOC then [Raise CONN_DEL]
    else []
  else [].
