(** Specification of CRC-32: polynomials over GF(2), as natural numbers whose bit
    [i] is the coefficient of x^i; addition is [N.lxor], multiplication by x^k is
    [N.shiftl _ k]. *)
From Coq Require Import List Arith NArith Bool.
From Verif Require Import Bytes.
Import ListNotations.
Open Scope N_scope.

(** The generator x^32+x^26+x^23+x^22+x^16+x^12+x^11+x^10+x^8+x^7+x^5+x^4+x^2+x+1. *)
Definition exponents : list N := [32; 26; 23; 22; 16; 12; 11; 10; 8; 7; 5; 4; 2; 1; 0].
Definition G : N := fold_right (fun k a => N.lxor (2 ^ k) a) 0 exponents.

(** Multiples of the generator, and congruence. *)
Inductive multiple : N -> Prop :=
| mult_0 : multiple 0
| mult_add : forall a k, multiple a -> multiple (N.lxor a (N.shiftl G k)).
Definition congruent (a b : N) : Prop := multiple (N.lxor a b).

(** The order of the low [n] bits reversed. *)
Fixpoint reflect (n : nat) (a : N) : N :=
  match n with
  | O => 0
  | S k => N.lxor (if N.odd a then 2 ^ N.of_nat k else 0) (reflect k (N.div2 a))
  end.

(** The message as a polynomial: the first byte first, the least significant bit
    of each byte first. *)
Definition poly (bs : list N) : N :=
  fold_left (fun m b => N.lxor (N.shiftl m 8) (reflect 8 b)) bs 0.

(** [crc] is the CRC-32 of [bs]: with both inversions undone, its reflection is the
    remainder of the message times x^32, with the first 32 bits inverted. *)
Definition is_crc32 (bs : list N) (crc : N) : Prop :=
  crc < 2 ^ 32 /\
  congruent (reflect 32 (N.lxor crc 0xffffffff))
            (N.lxor (N.shiftl (poly bs) 32) (N.shiftl 0xffffffff (8 * N.of_nat (length bs)))).

(** Errors: the bytes that arrive when the bits set in [e] are flipped. *)
Definition flip (pkt e : list N) : list N := map (fun '(a, b) => N.lxor a b) (combine pkt e).
(** All flipped bits lie within [w] consecutive bits, in the order in which the
    CRC takes them; [k] is the position of the first. *)
Definition burst (e : list N) (w k : N) : Prop :=
  exists v, v <> 0 /\ v < 2 ^ w /\ unle e = N.shiftl v k.
