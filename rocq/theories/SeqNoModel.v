(** Model of the sequence-number comparisons of src/lib/frct.c. *)
From Coq Require Import NArith ZArith Bool.
Open Scope Z_scope.

Definition two32 : Z := 2 ^ 32.

(** uint32_t subtraction. *)
Definition u32_sub (a b : Z) : Z := (a - b) mod two32.

(** The cast to int32_t (two's complement). *)
Definition to_i32 (x : Z) : Z := if x <? 2 ^ 31 then x else x - two32.

(** frct.c:222-226, before. *)
Definition before (seq1 seq2 : Z) : bool := to_i32 (u32_sub seq1 seq2) <? 0.

(** frct.c:228-232, after. *)
Definition after (seq1 seq2 : Z) : bool := to_i32 (u32_sub seq2 seq1) <? 0.
