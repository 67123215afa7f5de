(** What C90 says about a ring between threads, in terms of calls and what
    they return. *)
From Coq Require Import List NArith.
From Verif Require Import RbllModel.
Import ListNotations.
Open Scope N_scope.

(** A history: the events and what returned in each, the latest first. *)
Notation hist := (list (ev * option out)).

Inductive runs (lg : N) : hist -> st -> Prop :=
| runs_init : runs lg [] init
| runs_step : forall h s e s' r, runs lg h s -> step lg s e = Some (s', r) -> runs lg ((e, r) :: h) s'.

(** The entries of the writes that returned 0, in the order in which they
    returned, and the entries that reads returned. *)
Fixpoint wrote (h : hist) : list N :=
  match h with
  | [] => []
  | (_, Some (Wrote x)) :: h => wrote h ++ [x]
  | _ :: h => wrote h
  end.
Fixpoint got (h : hist) : list N :=
  match h with
  | [] => []
  | (_, Some (Got x)) :: h => got h ++ [x]
  | _ :: h => got h
  end.

(** The entry of the write that thread [t] has called and that has not
    returned. *)
Fixpoint current (t : nat) (h : hist) : list N :=
  match h with
  | [] => []
  | (Call u o, _) :: h => if Nat.eqb u t
                          then match o with Write x | WriteB x _ => [x] | _ => [] end
                          else current t h
  | (Step u, Some _) :: h => if Nat.eqb u t then [] else current t h
  | _ :: h => current t h
  end.

(** The history up to the last call of thread [t]. *)
Fixpoint before_call (t : nat) (h : hist) : hist :=
  match h with
  | [] => []
  | (Call u _, _) :: h' => if Nat.eqb u t then h' else before_call t h'
  | _ :: h' => before_call t h'
  end.

(** Only thread [w] writes; only thread [r] reads. *)
Definition writes_only (w : nat) (h : hist) : Prop :=
  forall t o r, In (Call t o, r) h -> match o with Write _ | WriteB _ _ => t = w | _ => True end.
Definition reads_only (w : nat) (h : hist) : Prop :=
  forall t o r, In (Call t o, r) h -> match o with Read | ReadB _ => t = w | _ => True end.

(** The access word is only ever set to say that the flow is down. *)
Definition only_down (h : hist) : Prop :=
  forall v r, In (SetAcl v, r) h -> N.land v FLOWDOWN <> 0.
(** shm_rbuff_write_b is not called. *)
Definition no_write_b (h : hist) : Prop :=
  forall t x tm r, ~ In (Call t (WriteB x tm), r) h.

(** Somebody calls a write; a wait ends without a broadcast. *)
Definition write_called (h : hist) : Prop :=
  exists t o r, In (Call t o, r) h /\ match o with Write _ | WriteB _ _ => True | _ => False end.
Definition spurious (h : hist) : Prop := exists t r, In (Spurious t, r) h.
