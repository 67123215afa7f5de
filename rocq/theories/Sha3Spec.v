(** FIPS 202, the SHA-3 standard, written down from the standard over bit strings
    and three-dimensional arrays of bits.  Nothing here is taken from the code. *)
From Coq Require Import List Arith NArith Bool.
Import ListNotations.

(** 3.1.1: the state is A[x, y, z] with 0 <= x, y < 5 and 0 <= z < 64. *)
Definition state := nat -> nat -> nat -> bool.
Definition bitstring := nat -> bool.
(** 3.1.2 and 3.1.3. *)
Definition to_array (S : bitstring) : state := fun x y z => S (64 * (5 * y + x) + z)%nat.
Definition to_string (A : state) : bitstring :=
  fun i => A ((i / 64) mod 5) (i / 64 / 5) (i mod 64).

(** 3.2.1, theta.  [(x - 1) mod 5] is written [(x + 4) mod 5]. *)
Definition parity (A : state) (x z : nat) : bool :=
  xorb (xorb (xorb (xorb (A x 0 z) (A x 1 z)) (A x 2 z)) (A x 3 z)) (A x 4 z).
Definition theta (A : state) : state := fun x y z =>
  xorb (A x y z) (xorb (parity A ((x + 4) mod 5) z) (parity A ((x + 1) mod 5) ((z + 63) mod 64))).

(** 3.2.2, rho: the walk starts at (1, 0); the offset of step t is (t+1)(t+2)/2. *)
Fixpoint walk (t : nat) : nat * nat :=
  match t with
  | O => (1, 0)
  | S t => let '(x, y) := walk t in (y, (2 * x + 3 * y) mod 5)
  end%nat.
Definition offset (x y : nat) : nat :=
  match find (fun t => let '(a, b) := walk t in Nat.eqb a x && Nat.eqb b y)%bool (seq 0 24) with
  | Some t => (((t + 1) * (t + 2) / 2) mod 64)%nat
  | None => 0%nat
  end.
Definition rho (A : state) : state := fun x y z => A x y ((z + (64 - offset x y)) mod 64).

(** 3.2.3, pi. *)
Definition pi (A : state) : state := fun x y z => A ((x + 3 * y) mod 5) x z.

(** 3.2.4, chi. *)
Definition chi (A : state) : state := fun x y z =>
  xorb (A x y z) (negb (A ((x + 1) mod 5) y z) && A ((x + 2) mod 5) y z).

(** 3.2.5, algorithm 5: rc(t), a linear feedback shift register. *)
Definition rc_step (R : list bool) : list bool :=
  let R := false :: R in
  let r8 := nth 8 R false in
  let flip i l := firstn i l ++ [xorb (nth i l false) r8] ++ skipn (S i) l in
  firstn 8 (flip 6 (flip 5 (flip 4 (flip 0 R)))).
Definition rc (t : nat) : bool :=
  nth 0 (Nat.iter (t mod 255) rc_step [true; false; false; false; false; false; false; false]) false.
(** 3.2.5, algorithm 6: bit 2^j - 1 of the round constant is rc(j + 7 ir). *)
Definition RC (ir z : nat) : bool :=
  match find (fun j => Nat.eqb z (2 ^ j - 1)) (seq 0 7) with
  | Some j => rc (j + 7 * ir)
  | None => false
  end.
Definition iota (ir : nat) (A : state) : state := fun x y z =>
  if (Nat.eqb x 0 && Nat.eqb y 0)%bool then xorb (A x y z) (RC ir z) else A x y z.

(** 3.3 and 3.4: Keccak-f[1600] has 24 rounds. *)
Definition Rnd (A : state) (ir : nat) : state := iota ir (chi (pi (rho (theta A)))).
Definition keccak_f (S : bitstring) : bitstring :=
  to_string (fold_left Rnd (seq 0 24) (to_array S)).

(** 4, algorithm 8, the sponge with rate [r]: [n] blocks of [P] are absorbed; the
    digest is never longer than a block, so that one squeeze suffices. *)
Fixpoint absorb (r n : nat) (P : list bool) (S : bitstring) : bitstring :=
  match n with
  | O => S
  | Datatypes.S n =>
    absorb r n (skipn r P) (keccak_f (fun i => xorb (S i) (nth i (firstn r P) false)))
  end.
(** 5.1, pad10*1: 1, as few zeros as possible, 1, up to a multiple of x. *)
Definition pad101 (x m : nat) : list bool :=
  [true] ++ repeat false ((x - (m + 2) mod x) mod x) ++ [true].
Definition sponge (r : nat) (N : list bool) (d : nat) : list bool :=
  let P := N ++ pad101 r (length N) in
  map (absorb r (length P / r) P (fun _ => false)) (seq 0 d).
(** 6.1: SHA3-d(M) = KECCAK[2d](M || 01, d). *)
Definition SHA3 (d : nat) (M : list bool) : list bool :=
  sponge (1600 - 2 * d) (M ++ [false; true]) d.

(** B.1: bytes to bits, the least significant bit first. *)
Definition bits (l : list N) : list bool :=
  flat_map (fun b => map (fun i => N.testbit b (N.of_nat i)) (seq 0 8)) l.
