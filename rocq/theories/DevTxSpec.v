(* What a user relies on: every packet of the pool is in one place, and the
   result of a write says where. *)
From Coq Require Import List NArith ZArith Bool Permutation.
From Verif Require Import DevTxModel.
Import ListNotations.
Open Scope N_scope.

(* Each live packet is in the ring, in a hand or with a waiting writer, and in
   one of them only; whatever is in one of these places is live. *)
Definition accounted (s : st) : Prop :=
  NoDup (live s) /\ Permutation (live s) (q s ++ hand s ++ map fst (blk s)).

(* What the surroundings guarantee: the pool hands out packets that are not in
   use; a program passes on or releases only what it holds. *)
Definition env_ok (s : st) (e : event) : Prop :=
  match e with
  | Write _ _ i | Obtain i => ~ In i (live s)
  | Np1Write i | Release i => In i (hand s)
  | _ => True
  end.

(* Three situations. *)
Definition is_write (e : event) : bool :=
  match e with Write _ false _ | Np1Write _ => true | _ => false end.

(* A write to a ring that is marked only with "peer is dead". *)
Definition peer_dead (s : st) (e : event) : Prop :=
  is_write e = true /\ acl s <> ACL_RDWR /\ N.testbit (acl s) 0 = false /\ N.testbit (acl s) 1 = false.

(* A writer waiting for room is woken because the flow went down. *)
Definition woken_by_down (cap : nat) (s : st) (e : event) : Prop :=
  exists i w, e = Wake i w /\ w <> TimedOut /\ (cap <= length (q s))%nat /\ N.testbit (acl s) 1 = true.

(* A writer waiting for room is the first to find that another process died
   inside the ring. *)
Definition woken_by_death (s : st) (e : event) : Prop := exists i, e = Wake i OwnerDead.

Inductive reach (cap : nat) (ok : st -> event -> Prop) : st -> Prop :=
| r_init : reach cap ok init
| r_step : forall s e, reach cap ok s -> env_ok s e -> ok s e -> reach cap ok (fst (step cap s e)).

Definition careful (cap : nat) (s : st) (e : event) : Prop :=
  ~ peer_dead s e /\ ~ woken_by_down cap s e /\ ~ woken_by_death s e.

(* The packet a call is about. *)
Definition packet (e : event) : option nat :=
  match e with Write _ _ i | Np1Write i | Wake i _ => Some i | _ => None end.
