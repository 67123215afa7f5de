(** What a user of the identifier pool relies on, stated over the observable
    results of calls only.

    A history is recorded as the list of identifiers currently allocated,
    i.e. those returned by a successful allocate and not released since. *)

From Coq Require Import List NArith ZArith.
From Verif Require Import BitmapModel.
Import ListNotations.

(** [reach B O b used]: the pool can be in state [b] after some history of
    calls on a pool of [B] identifiers starting at [O], and the calls'
    results leave exactly [used] allocated.  Clients release only what they
    were given. *)
Inductive reach (B : N) (O : Z) : bmp -> list Z -> Prop :=
| reach_create : reach B O (bmp_create B O) []
| reach_alloc_ok b used b' id :
    reach B O b used ->
    bmp_allocate b = Some (b', id) -> id <> (O - 1)%Z ->
    reach B O b' (id :: used)
| reach_alloc_fail b used b' :
    reach B O b used ->
    bmp_allocate b = Some (b', (O - 1)%Z) ->
    reach B O b' used
| reach_release b used b' id r :
    reach B O b used -> In id used ->
    bmp_release b id = Some (b', r) ->
    reach B O b' (remove Z.eq_dec id used).

(** [id] is one of the pool's identifiers. *)
Definition in_pool (B : N) (O id : Z) : Prop := (O <= id < O + Z.of_N B)%Z.
