(** C01, C02: the identifier pool (src/lib/bitmap.c). *)
From Coq Require Import List NArith ZArith Lia.
From Verif Require Import BitmapModel BitmapSpec BitmapProofs.
Import ListNotations.

(** C01: allocate never touches memory outside the array; it returns either an
    identifier of the pool that nobody holds, or the failure value, and the
    latter only if every identifier is held. *)
Theorem bmp_allocate_fresh : forall B O b used,
  (1 <= B)%N -> reach B O b used ->
  exists b' id, bmp_allocate b = Some (b', id) /\
    ((id = (O - 1)%Z /\ (forall i, in_pool B O i -> In i used)) \/
     (in_pool B O id /\ ~ In id used)).
Proof. exact c01_alloc. Qed.
Print Assumptions bmp_allocate_fresh.

(** C01: the pool knows exactly which identifiers are held. *)
Theorem bmp_is_id_used_exact : forall B O b used id,
  (1 <= B)%N -> reach B O b used -> in_pool B O id ->
  exists r, bmp_is_id_used b id = Some r /\ (r = true <-> In id used).
Proof. exact c01_used. Qed.
Print Assumptions bmp_is_id_used_exact.

(** C01: no identifier is held twice, at most B are held, and allocate fails
    exactly when B are held. *)
Theorem bmp_capacity_exact : forall B O b used,
  (1 <= B)%N -> reach B O b used ->
  NoDup used /\ (N.of_nat (length used) <= B)%N /\
  (bmp_allocate b = Some (b, (O - 1)%Z) <-> N.of_nat (length used) = B).
Proof. exact c01_capacity. Qed.
Print Assumptions bmp_capacity_exact.

(** C01: a held identifier can be released, ... *)
Theorem bmp_release_succeeds : forall B O b used id,
  (1 <= B)%N -> reach B O b used -> In id used ->
  exists b', bmp_release b id = Some (b', 0%Z).
Proof. exact c01_release. Qed.
Print Assumptions bmp_release_succeeds.

(** C01: ... is then free, no other identifier changed, and the next allocate
    succeeds. *)
Theorem bmp_release_only_that_id : forall B O b used id b' r,
  (1 <= B)%N -> reach B O b used -> In id used ->
  bmp_release b id = Some (b', r) ->
  r = 0%Z /\
  bmp_is_id_used b' id = Some false /\
  (forall i, in_pool B O i -> i <> id -> bmp_is_id_used b' i = bmp_is_id_used b i) /\
  exists b'' id', bmp_allocate b' = Some (b'', id') /\ id' <> (O - 1)%Z.
Proof. exact c01_reuse. Qed.
Print Assumptions bmp_release_only_that_id.

(** C02, the part that holds: identifiers below O or above O+B are refused
    without effect, identifiers of the pool are valid.
    Missing for the full property: the identifier O+B (see the refutation). *)
Theorem bmp_range_guard_partial : forall B O b used id,
  (1 <= B)%N -> reach B O b used ->
  ((id < O \/ O + Z.of_N B < id)%Z ->
     bmp_is_id_valid b id = false /\ bmp_release b id = Some (b, (-1)%Z)) /\
  (in_pool B O id -> bmp_is_id_valid b id = true).
Proof.
  exact (fun B O b used id HB H =>
           conj (c02_guard B O b used id HB H) (c02_valid B O b used id HB H)).
Qed.
Print Assumptions bmp_range_guard_partial.

(** C02 is false of the code: O+B is not an identifier of the pool, yet it is
    always declared valid, its release succeeds, or, when the pool size is a
    multiple of the word size, accesses memory behind the array. *)
Theorem bmp_range_guard_refuted : forall B O b used,
  (1 <= B)%N -> reach B O b used ->
  ~ in_pool B O (O + Z.of_N B) /\
  bmp_is_id_valid b (O + Z.of_N B) = true /\
  ((B mod 64)%N = 0%N -> bmp_release b (O + Z.of_N B) = None) /\
  ((B mod 64)%N <> 0%N -> exists b', bmp_release b (O + Z.of_N B) = Some (b', 0%Z)).
Proof.
  exact (fun B O b used HB H =>
           conj (fun Hp => Z.lt_irrefl _ (proj2 Hp)) (c02_boundary B O b used HB H)).
Qed.
Print Assumptions bmp_range_guard_refuted.

(** Non-vacuity: a reachable pool of 70 identifiers starting at 64 (two words)
    with two held identifiers, after three allocations and a release. *)
Example bmp_reach_example : exists b, reach 70 64 b [66; 64]%Z /\
  bmp_is_id_used b 65 = Some false.
Proof.
  pose proof (reach_create 70 64) as R0.
  assert (R1 := reach_alloc_ok 70 64 _ _ _ 64%Z R0 eq_refl ltac:(lia)).
  assert (R2 := reach_alloc_ok 70 64 _ _ _ 65%Z R1 eq_refl ltac:(lia)).
  assert (R3 := reach_alloc_ok 70 64 _ _ _ 66%Z R2 eq_refl ltac:(lia)).
  assert (R4 := reach_release 70 64 _ _ _ 65%Z 0%Z R3 ltac:(simpl; auto) eq_refl).
  eexists. split; [exact R4|]. vm_compute. reflexivity.
Qed.
