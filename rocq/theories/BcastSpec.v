(** What the properties of the broadcast IPCP are about. *)
From Coq Require Import ZArith List Bool Arith.
From Verif Require Import BcastModel.
Import ListNotations.

(** * One node.  Histories are lists of events, latest first. *)

(** The neighbours: added and not deleted since. *)
Fixpoint neighbour (f : fd) (h : list event) : bool :=
  match h with
  | [] => false
  | Add g :: h' => Nat.eqb g f || neighbour f h'
  | Del g :: h' => negb (Nat.eqb g f) && neighbour f h'
  | _ :: h' => neighbour f h'
  end.

(** The packets that arrived from a neighbour, first to last, and those
    that were read and sent on. *)
Fixpoint arrived (f : fd) (h : list event) : list pkt :=
  match h with
  | [] => []
  | Arrive g p :: h' => if Nat.eqb g f then arrived f h' ++ [p] else arrived f h'
  | _ :: h' => arrived f h'
  end.
Fixpoint flooded (f : fd) (h : list event) : list pkt :=
  match h with
  | [] => []
  | e :: h' =>
      match outcome e h' with
      | Flood g p _ => if Nat.eqb g f then flooded f h' ++ [p] else flooded f h'
      | Nothing => flooded f h'
      end
  end.

(** Descriptors are added once and packets come from neighbours. *)
Fixpoint added (f : fd) (h : list event) : bool :=
  match h with
  | [] => false
  | Add g :: h' => Nat.eqb g f || added f h'
  | _ :: h' => added f h'
  end.
Fixpoint from_neighbours (h : list event) : Prop :=
  match h with
  | [] => True
  | Arrive g _ :: h' => neighbour g h' = true /\ from_neighbours h'
  | _ :: h' => from_neighbours h'
  end.
Fixpoint no_reuse (h : list event) : Prop :=
  match h with
  | [] => True
  | Add g :: h' => added g h' = false /\ no_reuse h'
  | _ :: h' => no_reuse h'
  end.
(** Packets have at least one byte and less than 1400. *)
Fixpoint packets (P : pkt -> Prop) (h : list event) : Prop :=
  match h with
  | [] => True
  | Arrive _ p :: h' => P p /\ packets P h'
  | _ :: h' => packets P h'
  end.
Definition usual (p : pkt) : Prop := 0 < length p < 1400.

(** * A layer *)

(** Links go both ways, are not doubled and lead to another node. *)
Definition proper (links : nat -> list nat) : Prop :=
  (forall u v, In v (links u) -> In u (links v)) /\
  (forall u, NoDup (links u)) /\ (forall u, ~ In u (links u)).

(** A walk along the links. *)
Inductive walk (links : nat -> list nat) : list nat -> Prop :=
| W1 v : walk links [v]
| WS v u l : In v (links u) -> walk links (u :: l) -> walk links (v :: u :: l).

Definition connected (links : nat -> list nat) (nodes : list nat) : Prop :=
  forall s v, In s nodes -> In v nodes -> exists l, walk links (v :: l) /\ last (v :: l) v = s.

(** A cycle: at least three different nodes, back to the first. *)
Definition cycle (links : nat -> list nat) (x : nat) (a : list nat) : Prop :=
  2 <= length a /\ NoDup (x :: a) /\ walk links (x :: a ++ [x]).

Definition acyclic (links : nat -> list nat) : Prop := forall x a, ~ cycle links x a.

(** The nodes of the layer. *)
Definition covers (links : nat -> list nat) (nodes : list nat) : Prop :=
  NoDup nodes /\ forall u v, In u nodes -> In v (links u) -> In v nodes.

(** How often a node received the packet. *)
Definition received (v : nat) (x : net) : nat :=
  count_occ Nat.eq_dec (map (fun t => hd 0 t) (got x)) v.
