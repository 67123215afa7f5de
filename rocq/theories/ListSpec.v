(** What the lists must do (C107): lists of addresses. *)
From Coq Require Import List Arith Bool.
From Verif Require Import ListModel.
Import ListNotations.

(** The lists, by the address of their head; an element that was taken out is an empty
    list of its own. *)
Definition lists := nat -> option (list nat).
Definition remove (e : nat) (l : list nat) : list nat := filter (fun x => negb (x =? e)) l.
Definition inside (e : nat) (L : lists) : Prop := exists h l, L h = Some l /\ In e l.
(** Neither a head nor in a list. *)
Definition unused (n : nat) (L : lists) : Prop := L n = None /\ ~ inside n L.

(** What each call means. *)
Definition means (L : lists) (o : op) : lists :=
  match o with
  | Init h => upd L h (Some [])
  | Add n h => upd (upd L n None) h (option_map (fun l => n :: l) (L h))
  | AddTail n h => upd (upd L n None) h (option_map (fun l => l ++ [n]) (L h))
  | Del e => upd (fun x => option_map (remove e) (L x)) e (Some [])
  | Move e h => upd (upd (fun x => option_map (remove e) (L x)) e None) h (option_map (fun l => e :: remove e l) (L h))
  end.
(** When it may be made: a new element is in no list, an element that is deleted or
    moved is in one, or was taken out before. *)
Definition may (L : lists) (o : op) : Prop :=
  match o with
  | Init h => unused h L \/ L h = Some []
  | Add n h | AddTail n h => n <> h /\ (unused n L \/ L n = Some []) /\ L h <> None
  | Del e => inside e L \/ L e = Some []
  | Move e h => e <> h /\ (inside e L \/ L e = Some []) /\ L h <> None
  end.
(** A history of calls, from memory with anything in it, and the lists after it. *)
Inductive history : list op -> lists -> Prop :=
| HNil : history [] (fun _ => None)
| HOp : forall os L o, history os L -> may L o -> history (os ++ [o]) (means L o).

(** The memory shows the list [l] at [h]. *)
Definition shows (m : mem) (h : nat) (l : list nat) : Prop :=
  list_is_empty h m = (match l with [] => true | _ => false end) /\
  list_first h m = hd h l /\ list_last h m = last l h /\
  (forall fuel, length l < fuel -> list_for_each fuel h m = Some l) /\
  (forall e a b, l = a ++ e :: b -> nxt m e = hd h b /\ prv m e = last a h).

(** A queue (C108): those that were put in, in order; those that were taken; those that
    wait, the one that came first at the head. *)
Fixpoint puts (os : list qop) : list nat :=
  match os with [] => [] | Put n :: t => n :: puts t | Take :: t => puts t end.
Definition queue_step (s : list nat * list nat) (o : qop) : list nat * list nat :=
  match o, snd s with
  | Put n, w => (fst s, w ++ [n])
  | Take, [] => s
  | Take, e :: w => (fst s ++ [e], w)
  end.
Definition queue (os : list qop) : list nat * list nat := fold_left queue_step os ([], []).
Definition taken (os : list qop) : list nat := fst (queue os).
Definition waiting (os : list qop) : list nat := snd (queue os).
(** What is put in does not wait already. *)
Definition fresh (h : nat) (os : list qop) : Prop :=
  forall a n b, os = a ++ Put n :: b -> n <> h /\ ~ In n (waiting a).

(** The newest first. *)
Definition stack_step (s : list nat * list nat) (o : qop) : list nat * list nat :=
  match o, snd s with
  | Put n, w => (fst s, n :: w)
  | Take, [] => s
  | Take, e :: w => (fst s ++ [e], w)
  end.
Definition stack (os : list qop) : list nat * list nat := fold_left stack_step os ([], []).
Definition fresh_stack (h : nat) (os : list qop) : Prop :=
  forall a n b, os = a ++ Put n :: b -> n <> h /\ ~ In n (snd (stack a)).
