(** C24: the forwarding table is an exact map. *)
From Coq Require Import List NArith ZArith.
From Verif Require Import PftModel PftSpec PftProofs.
Import ListNotations.
Open Scope N_scope.

(** For every requested size up to 2^32 and every hash function (or none), the
    results of every history of calls are those of a map that starts empty, and
    no access is out of bounds. *)
Theorem pft_exact_map (V : Type) n (h : option (N -> N)) (ops : list (op V)) :
  1 <= n -> n <= 2 ^ 32 ->
  exists p, pft_create n h = Some p /\ run p ops = Some (spec_run fempty ops).
Proof. exact (c24 V n h ops). Qed.
Print Assumptions pft_exact_map.

(** The number of buckets is the least power of two that is at least [n]. *)
Theorem pft_size_rounds_up n : 1 <= n -> n <= 2 ^ 63 ->
  exists k, round_up_pow2 n = 2 ^ k /\ n <= 2 ^ k /\ (forall j, n <= 2 ^ j -> k <= j).
Proof. exact (round_up_spec n). Qed.
Print Assumptions pft_size_rounds_up.

(** Colliding destinations in a table of two buckets (3 mod 2 = 1 mod 2). *)
Example pft_exact_map_ex :
  match pft_create 2 (Some (fun d => d * 7)) with
  | Some p => run p [Insert 1 10; Insert 3 30; Insert 1 11; Lookup 3; Delete 1; Delete 1; Lookup 1;
                     Insert 1 12; Lookup 1; Flush; Lookup 3]
              = Some [RInt 0%Z; RInt 0%Z; RInt (-1)%Z; RVal (Some 30); RInt 0%Z; RInt (-1)%Z; RVal None;
                      RInt 0%Z; RVal (Some 12); RUnit; RVal None]
  | None => False
  end.
Proof. vm_compute. reflexivity. Qed.
