(** What the helpers must do (C109). *)
From Coq Require Import List NArith ZArith Arith Bool String.
From Verif Require Import RibModel StatModel UtilModel StatSpec.
Import ListNotations.
Local Open Scope nat_scope.

(** An argument list as programs get it: pointers to strings, then NULL, then anything. *)
Definition holds (argv : list (option str)) (args : list str) : Prop := exists rest, argv = map Some args ++ None :: rest.
(** A block that is allocated later is new. *)
Definition sane (h : heap) : Prop := NoDup (live h) /\ forall k, In k (live h) -> k < next h.
(** [t] is the last part of the path [s]. *)
Definition last_part (s t : str) : Prop :=
  ~ In slash t /\ (s = t \/ exists p, s = p ++ slash :: t).
(** [k] digits are the fewest that show [i]. *)
Definition width (i : N) (k : nat) : Prop :=
  (i < 10 ^ N.of_nat k)%N /\ 1 <= k /\ (k = 1 \/ (10 ^ N.of_nat (k - 1) <= i)%N).
(** A copy: an array of blocks that are new and all different, with the same texts, and
    NULL. *)
Definition copy (h h' : heap) (args : list str) (a : nat) (cs : list cell) : Prop :=
  exists ks, cs = map Ptr ks ++ [Null] /\ map (text h') ks = args /\ NoDup (a :: ks) /\
    (forall k, In k (a :: ks) -> ~ In k (live h)) /\
    (forall k, In k (live h') <-> In k (a :: ks) \/ In k (live h)) /\
    (forall k, In k (live h) -> text h' k = text h k).
(** The path of the socket of the IPCP with process id [pid]. *)
Definition sock_name (pid : N) (s : str) : Prop :=
  exists v, StatSpec.shows v pid /\ s = s2l "/var/run/ouroboros/ipcp_" ++ v ++ s2l ".sock".
