(** The doubly linked lists of src/lib/list.c and include/ouroboros/list.h, which
    every other part of the code uses: addresses, and the two pointers of the
    struct list_head at each address.  Every store is done in the order of the
    code.

    Simplifications: an address is a number; the struct around a list_head
    (list_entry) is left out. *)
From Coq Require Import List Arith Bool.
Import ListNotations.

(* struct list_head: list.h:31-34 *)
Record mem := Mem { nxt : nat -> nat; prv : nat -> nat }.
Definition upd {A} (f : nat -> A) (a : nat) (v : A) : nat -> A := fun x => if x =? a then v else f x.
Definition set_nxt (a v : nat) (m : mem) : mem := Mem (upd (nxt m) a v) (prv m).
Definition set_prv (a v : nat) (m : mem) : mem := Mem (nxt m) (upd (prv m) a v).

(* list.c:27-31 *)
Definition list_head_init (h : nat) (m : mem) : mem :=
  let m := set_nxt h h m in
  set_prv h h m.
(* list.c:33-41 *)
Definition add_list (n p x : nat) (m : mem) : mem :=
  let m := set_prv x n m in
  let m := set_nxt n x m in
  let m := set_prv n p m in
  set_nxt p n m.
(* list.c:43-48 *)
Definition del_list (p x : nat) (m : mem) : mem :=
  let m := set_prv x p m in
  set_nxt p x m.
(* list.c:50-54 *)
Definition list_add (n h : nat) (m : mem) : mem := add_list n h (nxt m h) m.
(* list.c:56-60 *)
Definition list_add_tail (n h : nat) (m : mem) : mem := add_list n (prv m h) h m.
(* list.c:62-66 *)
Definition list_del (e : nat) (m : mem) : mem :=
  let m := del_list (prv m e) (nxt m e) m in
  let m := set_prv e e m in
  set_nxt e e m.
(* list.c:68-71 *)
Definition list_is_empty (h : nat) (m : mem) : bool := nxt m h =? h.
(* list.c:73-78 *)
Definition list_move (n h : nat) (m : mem) : mem :=
  let m := del_list (prv m n) (nxt m n) m in
  add_list n h (nxt m h) m.
(* list.h:39-43 *)
Definition list_first (h : nat) (m : mem) : nat := nxt m h.
Definition list_last (h : nat) (m : mem) : nat := prv m h.

(** list_for_each, list.h:45-46: the elements visited; None if the loop does not end
    within [fuel] steps. *)
Fixpoint each (fuel : nat) (h p : nat) (m : mem) : option (list nat) :=
  match fuel with
  | O => None
  | S f => if p =? h then Some [] else option_map (cons p) (each f h (nxt m p) m)
  end.
Definition list_for_each (fuel h : nat) (m : mem) : option (list nat) := each fuel h (nxt m h) m.

(** list_for_each_safe, list.h:48-49, with a body that deletes the element and frees
    it if [d] says so.  [gone]: what was freed.  None if the loop does not end
    within [fuel] steps or follows a pointer in freed memory. *)
Fixpoint each_safe (fuel h : nat) (d : nat -> bool) (p t : nat) (m : mem) (gone : list nat) : option (list nat * mem) :=
  match fuel with
  | O => None
  | S f =>
      if p =? h then Some ([], m)
      else
        let m := if d p then list_del p m else m in
        let gone := if d p then p :: gone else gone in
        if existsb (Nat.eqb t) gone then None
        else option_map (fun r => (p :: fst r, snd r)) (each_safe f h d t (nxt m t) m gone)
  end.
Definition list_for_each_safe (fuel h : nat) (d : nat -> bool) (m : mem) : option (list nat * mem) :=
  each_safe fuel h d (nxt m h) (nxt m (nxt m h)) m [].

Inductive op := Init (h : nat) | Add (n h : nat) | AddTail (n h : nat) | Del (e : nat) | Move (e h : nat).
Definition exec (m : mem) (o : op) : mem :=
  match o with
  | Init h => list_head_init h m
  | Add n h => list_add n h m
  | AddTail n h => list_add_tail n h m
  | Del e => list_del e m
  | Move e h => list_move e h m
  end.

(** The queues.  What comes is added in front: list_add, irmd/main.c:1301, ipcp.c:254,
    fa.c:433, dht.c:2645, eth.c:949, udp/main.c:481, connmgr.c:122. *)
Definition push (n h : nat) (m : mem) : mem := list_add n h m.
(** Commands and messages are taken at the end: irmd/main.c:1524-1528, ipcp.c:660-664,
    fa.c:449-453, dht.c:2459-2463.  None: an empty queue is waited on. *)
Definition pop_last (h : nat) (m : mem) : option (nat * mem) :=
  if list_is_empty h m then None else Some (list_last h m, list_del (list_last h m) m).
(** Management frames and accepted connections are taken in front: eth.c:799-808,
    udp/main.c:405-412, connmgr.c:545-558. *)
Definition pop_first (h : nat) (m : mem) : option (nat * mem) :=
  if list_is_empty h m then None else Some (list_first h m, list_del (list_first h m) m).
Inductive qop := Put (n : nat) | Take.
(** A run of a queue: what was taken, in order, and the memory. *)
Definition qstep (pop : nat -> mem -> option (nat * mem)) (h : nat) (s : list nat * mem) (o : qop) : list nat * mem :=
  match o with
  | Put n => (fst s, push n h (snd s))
  | Take => match pop h (snd s) with None => s | Some (e, m) => (fst s ++ [e], m) end
  end.
Definition qrun pop (h : nat) (os : list qop) (m : mem) : list nat * mem :=
  fold_left (qstep pop h) os ([], list_head_init h m).
