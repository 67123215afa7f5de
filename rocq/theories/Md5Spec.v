(** RFC 1321, the MD5 algorithm, for messages of whole bytes, written down from the
    RFC.  The table T is the one printed in the RFC's reference implementation;
    that it is floor(2^32 |sin i|) is not proved here. *)
From Coq Require Import List Arith NArith Bool.
From Verif Require Import Bytes.
Import ListNotations.
Open Scope N_scope.

Definition T : list N :=
  [
   0xd76aa478; 0xe8c7b756; 0x242070db; 0xc1bdceee; 0xf57c0faf; 0x4787c62a; 0xa8304613;
   0xfd469501; 0x698098d8; 0x8b44f7af; 0xffff5bb1; 0x895cd7be; 0x6b901122; 0xfd987193;
   0xa679438e; 0x49b40821; 0xf61e2562; 0xc040b340; 0x265e5a51; 0xe9b6c7aa; 0xd62f105d;
   0x2441453; 0xd8a1e681; 0xe7d3fbc8; 0x21e1cde6; 0xc33707d6; 0xf4d50d87; 0x455a14ed;
   0xa9e3e905; 0xfcefa3f8; 0x676f02d9; 0x8d2a4c8a; 0xfffa3942; 0x8771f681; 0x6d9d6122;
   0xfde5380c; 0xa4beea44; 0x4bdecfa9; 0xf6bb4b60; 0xbebfbc70; 0x289b7ec6; 0xeaa127fa;
   0xd4ef3085; 0x4881d05; 0xd9d4d039; 0xe6db99e5; 0x1fa27cf8; 0xc4ac5665; 0xf4292244;
   0x432aff97; 0xab9423a7; 0xfc93a039; 0x655b59c3; 0x8f0ccc92; 0xffeff47d; 0x85845dd1;
   0x6fa87e4f; 0xfe2ce6e0; 0xa3014314; 0x4e0811a1; 0xf7537e82; 0xbd3af235; 0x2ad7d2bb;
   0xeb86d391
  ].
Definition add32 (a b : N) : N := (a + b) mod 2 ^ 32.
(** X <<< s: circular left shift. *)
Definition rol (x s : N) : N := N.lor (N.shiftl x s mod 2 ^ 32) (N.shiftr x (32 - s)).
Definition not32 (x : N) : N := N.lxor x (N.ones 32).
(** 3.4, the auxiliary functions. *)
Definition F (x y z : N) : N := N.lor (N.land x y) (N.land (not32 x) z).
Definition G (x y z : N) : N := N.lor (N.land x z) (N.land y (not32 z)).
Definition H (x y z : N) : N := N.lxor (N.lxor x y) z.
Definition I (x y z : N) : N := N.lxor y (N.lor x (not32 z)).

(** 3.4, step i (from 0) of the 64: a = b + ((a + f(b,c,d) + X[k] + T[i]) <<< s), and
    the registers rotate.  k is i, 5i+1, 3i+5 and 7i in the four rounds. *)
Definition func (i : nat) : N -> N -> N -> N :=
  match (i / 16)%nat with 0%nat => F | 1%nat => G | 2%nat => H | _ => I end.
Definition kth (i : nat) : nat :=
  match (i / 16)%nat with
  | 0%nat => i mod 16 | 1%nat => (5 * i + 1) mod 16 | 2%nat => (3 * i + 5) mod 16 | _ => (7 * i) mod 16
  end%nat.
Definition shifts (i : nat) : N :=
  nth (i mod 4) match (i / 16)%nat with
                | 0%nat => [7; 12; 17; 22] | 1%nat => [5; 9; 14; 20]
                | 2%nat => [4; 11; 16; 23] | _ => [6; 10; 15; 21]
                end 0.
Definition regs := (N * N * N * N)%type.
Definition step (X : list N) (r : regs) (i : nat) : regs :=
  let '(a, b, c, d) := r in
  let t := add32 (add32 (add32 a (func i b c d)) (nth (kth i) X 0)) (nth i T 0) in
  (d, add32 b (rol t (shifts i)), b, c).
Definition compress (r : regs) (block : list N) : regs :=
  let X := map (fun i => unle (firstn 4 (skipn (4 * i) block))) (seq 0 16) in
  let '(a, b, c, d) := r in
  let '(a', b', c', d') := fold_left (step X) (seq 0 64) r in
  (add32 a a', add32 b b', add32 c c', add32 d d').
(** 3.1 and 3.2, padding: one 1 bit, zeros up to 448 modulo 512 bits, and the low 64
    bits of the length in bits, least significant byte first. *)
Definition padding (len : nat) : list N :=
  [0x80] ++ repeat 0 ((119 - len mod 64) mod 64) ++ le 8 ((8 * N.of_nat len) mod 2 ^ 64).
Fixpoint blocks (n : nat) (M : list N) (r : regs) : regs :=
  match n with O => r | S n => blocks n (skipn 64 M) (compress r (firstn 64 M)) end.
(** 3.3 and 3.5. *)
Definition MD5 (M : list N) : list N :=
  let P := M ++ padding (length M) in
  let '(a, b, c, d) :=
    blocks (length P / 64) P (0x67452301, 0xefcdab89, 0x98badcfe, 0x10325476) in
  le 4 a ++ le 4 b ++ le 4 c ++ le 4 d.
