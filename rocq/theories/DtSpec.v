(** What the wire format of the data-transfer header is, independently of the
    code: the fields in order, the address and the endpoint id little-endian. *)
From Coq Require Import List NArith.
From Verif Require Import Bytes.
Import ListNotations.
Open Scope N_scope.

Definition wire (asz : nat) (dst q t c e : N) : list N :=
  le asz dst ++ [q] ++ [t] ++ [c] ++ le 8 e.

(** Every mark of [a] is still present in [b]. *)
Definition marks_kept (a b : N) : Prop := forall k, N.testbit a k = true -> N.testbit b k = true.
