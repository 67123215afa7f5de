(* Specification for C84, in terms of the history only.  Histories have the
   latest event first. *)
From Coq Require Import List Bool Arith.
From Verif Require Import LocalModel.
Import ListNotations.

(* Ends a and b belong to one flow. *)
Definition paired (h : list event) (a b : nat) : Prop :=
  exists f o, In (Req f a o b) h \/ In (Req o b f a) h.

(* What the application at an end has written. *)
Fixpoint sent (h : list event) (a : nat) : list pkt :=
  match h with
  | [] => []
  | Write c p :: h' => sent h' a ++ (if Nat.eqb c a then [(a, p)] else [])
  | _ :: h' => sent h' a
  end.

Definition name_of (e : event) (a : nat) : Prop :=
  match e with
  | Open _ c => c = a
  | Req _ _ _ b => b = a
  | _ => False
  end.

Definition fresh (h : list event) (a : nat) : Prop := forall e, In e h -> ~ name_of e a.

Definition ending (h : list event) (a : nat) : Prop := exists f, In (Fini f a) h.
Definition closed (h : list event) (a : nat) : Prop := exists f, In (Close f a) h.

(* The table entry for the end has been written. *)
Definition connected (h : list event) (a : nat) : Prop :=
  exists f o b, In (Table f a o b) h \/ In (Table o b f a) h.

(* The rest of the system: descriptors are given out when they are free, ends
   are new, each end is used in one flow, the steps of a call come in order. *)
Definition env_ok (h : list event) (e : event) : Prop :=
  let s := run h in
  match e with
  | Open fd a => flows s fd = None /\ fresh h a
  | Req fd a o b => flows s fd = Some a /\ flows s o = None /\ fresh h b /\ a <> b /\ (forall c, ~ paired h a c)
  | Table fd a o b => In (Req fd a o b) h
  | Fini fd a => flows s fd = Some a
  | Untable fd a => flows s fd = Some a /\ In (Fini fd a) h
  | Close fd a => flows s fd = Some a /\ cleared s a = true
  | Write a p => down s a = false /\ exists fd, flows s fd = Some a
  | Next fd => flows s fd <> None
  | Read | Look | Deliver => True
  end.

(* A descriptor is given out again ... *)
Definition gives (e : event) (fd : nat) : Prop :=
  match e with Open f _ => f = fd | Req _ _ o _ => o = fd | _ => False end.
(* ... only after both ends of every flow that used it are gone ... *)
Definition no_stale (h : list event) (e : event) : Prop :=
  forall fd, gives e fd -> forall f a o b, In (Req f a o b) h -> f = fd \/ o = fd -> closed h a /\ closed h b.
(* ... and not while the thread carries a packet from or to it. *)
Definition no_carry (h : list event) (e : event) : Prop :=
  forall fd, gives e fd ->
    match loop (run h) with Held g _ | Out g _ => g <> fd | _ => True end.
(* The two ends are connected before either of them is being ended. *)
Definition no_late_table (h : list event) (e : event) : Prop :=
  match e with
  | Table fd a o b => ~ ending h a /\ ~ ending h b
  | _ => True
  end.
(* The application writes once the flow is there. *)
Definition no_early (h : list event) (e : event) : Prop :=
  match e with Write a _ => connected h a | _ => True end.

Fixpoint every (P : list event -> event -> Prop) (h : list event) : Prop :=
  match h with
  | [] => True
  | e :: h' => P h' e /\ every P h'
  end.

(* Packets that were written at a and are still on their way. *)
Definition carried (l : lpc) (a : nat) : list pkt :=
  match l with
  | Held _ x | Out _ x => if Nat.eqb (fst x) a then [x] else []
  | _ => []
  end.

Inductive sub {A} : list A -> list A -> Prop :=
| sub_nil l : sub [] l
| sub_skip x l l' : sub l l' -> sub l (x :: l')
| sub_take x l l' : sub l l' -> sub (x :: l) (x :: l').

(* Everything above at once. *)
Definition careful (h : list event) (e : event) : Prop :=
  env_ok h e /\ no_stale h e /\ no_carry h e /\ no_late_table h e /\ no_early h e.
