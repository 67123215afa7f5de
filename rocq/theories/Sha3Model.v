(** Model of src/lib/sha3.c and of the SHA-3 cases of mem_hash in src/lib/hash.c,
    the hashing that is used when the library is built without libgcrypt.
    Lanes are numbers below 2^64, buffers are lists of bytes.  The machine is
    little-endian, as everywhere in this development: htole64 is the identity and
    a 64-bit word is loaded by [unle]. *)
From Coq Require Import List Arith NArith Bool.
From Verif Require Import Bytes.
Import ListNotations.
Open Scope N_scope.

(** Assignment to an array element. *)
Fixpoint upd (l : list N) (i : nat) (v : N) : list N :=
  match l, i with
  | [], _ => []
  | _ :: t, O => v :: t
  | a :: t, S k => a :: upd t k v
  end.
(** [A[i] ^= v]. *)
Definition xor_lane (A : list N) (i : nat) (v : N) : list N := upd A i (N.lxor (nth i A 0) v).

(** sha3.c:57, ROTL64: the left shift drops the bits above 2^64. *)
Definition rotl64 (q n : N) : N :=
  N.lxor (N.shiftl q n mod 2 ^ 64) (N.shiftr q (64 - n)).

(** sha3.c:62-75, keccak_round_constants. *)
Definition round_constants : list N :=
  [0x0000000000000001; 0x0000000000008082;
   0x800000000000808A; 0x8000000080008000;
   0x000000000000808B; 0x0000000080000001;
   0x8000000080008081; 0x8000000000008009;
   0x000000000000008A; 0x0000000000000088;
   0x0000000080008009; 0x000000008000000A;
   0x000000008000808B; 0x800000000000008B;
   0x8000000000008089; 0x8000000000008003;
   0x8000000000008002; 0x8000000000000080;
   0x000000000000800A; 0x800000008000000A;
   0x8000000080008081; 0x8000000000008080;
   0x0000000080000001; 0x8000000080008008].

(** sha3.c:107-129, keccak_theta. *)
Definition keccak_theta (A : list N) : list N :=
  let a i := nth i A 0 in
  let c x := N.lxor (N.lxor (N.lxor (N.lxor (a x) (a (x + 5)%nat)) (a (x + 10)%nat))
                            (a (x + 15)%nat)) (a (x + 20)%nat) in
  let D := [N.lxor (rotl64 (c 1%nat) 1) (c 4%nat);
            N.lxor (rotl64 (c 2%nat) 1) (c 0%nat);
            N.lxor (rotl64 (c 3%nat) 1) (c 1%nat);
            N.lxor (rotl64 (c 4%nat) 1) (c 2%nat);
            N.lxor (rotl64 (c 0%nat) 1) (c 3%nat)] in
  fold_left (fun A x =>
    let d := nth x D 0 in
    xor_lane (xor_lane (xor_lane (xor_lane (xor_lane A x d) (x + 5) d)
                                 (x + 10) d) (x + 15) d) (x + 20) d) (seq 0 5) A.

(** sha3.c:131-160, keccak_pi: the assignments in their order, the first element
    being the destination. *)
Definition pi_moves : list (nat * nat) :=
  [(1, 6); (6, 9); (9, 22); (22, 14); (14, 20); (20, 2); (2, 12); (12, 13);
   (13, 19); (19, 23); (23, 15); (15, 4); (4, 24); (24, 21); (21, 8); (8, 16);
   (16, 5); (5, 3); (3, 18); (18, 17); (17, 11); (11, 7); (7, 10)]%nat.
Definition keccak_pi (A : list N) : list N :=
  let A1 := nth 1 A 0 in
  upd (fold_left (fun A m => upd A (fst m) (nth (snd m) A 0)) pi_moves A) 10 A1.

(** sha3.c:162-174, keccak_chi. *)
Definition andn (a b : N) : N := N.land (N.lnot a 64) b.
Definition chi_row (A : list N) (i : nat) : list N :=
  let A0 := nth (0 + i) A 0 in
  let A1 := nth (1 + i) A 0 in
  let A := xor_lane A (0 + i) (andn A1 (nth (2 + i) A 0)) in
  let A := xor_lane A (1 + i) (andn (nth (2 + i) A 0) (nth (3 + i) A 0)) in
  let A := xor_lane A (2 + i) (andn (nth (3 + i) A 0) (nth (4 + i) A 0)) in
  let A := xor_lane A (3 + i) (andn (nth (4 + i) A 0) A0) in
  xor_lane A (4 + i) (andn A0 A1).
Definition keccak_chi (A : list N) : list N := fold_left chi_row [0; 5; 10; 15; 20]%nat A.

(** sha3.c:182-205, the rotations of rhash_sha3_permutation. *)
Definition rho_rots : list (nat * N) :=
  [(1%nat, 1); (2%nat, 62); (3%nat, 28); (4%nat, 27); (5%nat, 36); (6%nat, 44);
   (7%nat, 6); (8%nat, 55); (9%nat, 20); (10%nat, 3); (11%nat, 10); (12%nat, 43);
   (13%nat, 25); (14%nat, 39); (15%nat, 41); (16%nat, 45); (17%nat, 15); (18%nat, 21);
   (19%nat, 8); (20%nat, 18); (21%nat, 2); (22%nat, 61); (23%nat, 56); (24%nat, 14)].
Definition keccak_rho (A : list N) : list N :=
  fold_left (fun A m => upd A (fst m) (rotl64 (nth (fst m) A 0) (snd m))) rho_rots A.

(** sha3.c:176-213, rhash_sha3_permutation. *)
Definition keccak_round (A : list N) (rc : N) : list N :=
  xor_lane (keccak_chi (keccak_pi (keccak_rho (keccak_theta A)))) 0 rc.
Definition permutation (A : list N) : list N := fold_left keccak_round round_constants A.

(** sha3.c:215-261, rhash_sha3_process_block, without FULL_SHA3_FAMILY_SUPPORT,
    which nothing defines.  [block] may be longer than a block: it is the memory
    from the block's address on. *)
Definition word (block : list N) (i : nat) : N := unle (firstn 8 (skipn (8 * i) block)).
Definition absorb_lanes (hash block : list N) (is : list nat) : list N :=
  fold_left (fun h i => xor_lane h i (word block i)) is hash.
Definition process_block (hash block : list N) (block_size : nat) : list N :=
  let hash := absorb_lanes hash block (seq 0 9) in
  let hash :=
    if Nat.ltb 72 block_size then
      let hash := absorb_lanes hash block (seq 9 4) in
      if Nat.ltb 104 block_size then
        let hash := absorb_lanes hash block (seq 13 4) in
        if Nat.ltb 136 block_size then absorb_lanes hash block (seq 17 1) else hash
      else hash
    else hash in
  permutation hash.

(** sha3.h:59-68, struct sha3_ctx; the message buffer has 24 words. *)
Record sha3_ctx := mk_sha3 {
  s_hash : list N;
  s_msg : list N;
  s_rest : N;
  s_bs : nat
}.
(** sha3.c:263, SHA3_FINALIZED. *)
Definition FINALIZED : N := 0x80000000.

(** sha3.c:77-105, rhash_keccak_init and the four init functions. *)
Definition sha3_init (bits : nat) : sha3_ctx :=
  mk_sha3 (repeat 0 25) (repeat 0 192) 0 ((1600 - bits * 2) / 8)%nat.

(** sha3.c:289-308, the loop over whole blocks and the copy of the left-overs.
    [addr] is the address of [msg]: a block that is not at a multiple of eight is
    copied into the context first.  [None] is a copy outside of the buffer. *)
Fixpoint sha3_blocks (fuel : nat) (hash buf : list N) (bs : nat) (addr : N) (msg : list N)
  : option (list N * list N) :=
  match fuel with
  | O => None
  | S fuel =>
    if Nat.leb bs (length msg) then
      if N.land 7 addr =? 0 then
        sha3_blocks fuel (process_block hash msg bs) buf bs (addr + N.of_nat bs) (skipn bs msg)
      else
        match put buf 0 (firstn bs msg) with
        | None => None
        | Some buf =>
          sha3_blocks fuel (process_block hash buf bs) buf bs (addr + N.of_nat bs) (skipn bs msg)
        end
    else
      match msg with
      | [] => Some (hash, buf)
      | _ => match put buf 0 msg with None => None | Some buf => Some (hash, buf) end
      end
  end.

(** sha3.c:265-312, rhash_sha3_update for the bytes [msg] at address [addr].  The
    sum of rest and size is a size_t. *)
Definition sha3_update (ctx : sha3_ctx) (addr : N) (msg : list N) : option sha3_ctx :=
  let idx := N.to_nat (s_rest ctx) in
  let bs := s_bs ctx in
  if negb (N.land (s_rest ctx) FINALIZED =? 0) then Some ctx
  else
    let rest := ((s_rest ctx + N.of_nat (length msg)) mod 2 ^ 64) mod N.of_nat bs in
    let go hash buf addr msg :=
      match sha3_blocks (S (length msg)) hash buf bs addr msg with
      | None => None
      | Some (hash, buf) => Some (mk_sha3 hash buf rest bs)
      end in
    if Nat.eqb idx 0 then go (s_hash ctx) (s_msg ctx) addr msg
    else
      let left := (bs - idx)%nat in
      match put (s_msg ctx) idx (firstn (if Nat.ltb (length msg) left then length msg else left) msg) with
      | None => None
      | Some buf =>
        if Nat.ltb (length msg) left then Some (mk_sha3 (s_hash ctx) buf rest bs)
        else go (process_block (s_hash ctx) buf bs) buf (addr + N.of_nat left) (skipn left msg)
      end.

(** sha3.c:314-344, rhash_sha3_final: the context afterwards and the digest. *)
Definition or_byte (buf : list N) (i : nat) (v : N) : option (list N) :=
  put buf i [N.lor (nth i buf 0) v].
Definition sha3_final (ctx : sha3_ctx) : option (sha3_ctx * list N) :=
  let bs := s_bs ctx in
  let dlen := (100 - bs / 2)%nat in
  let out ctx :=
    if Nat.ltb dlen bs
    then Some (ctx, firstn dlen (flat_map (le 8) (s_hash ctx)))
    else None in
  if N.land (s_rest ctx) FINALIZED =? 0 then
    let rest := N.to_nat (s_rest ctx) in
    match put (s_msg ctx) rest (repeat 0 (bs - rest)) with
    | None => None
    | Some buf =>
      match or_byte buf rest 0x06 with
      | None => None
      | Some buf =>
        match or_byte buf (bs - 1) 0x80 with
        | None => None
        | Some buf => out (mk_sha3 (process_block (s_hash ctx) buf bs) buf FINALIZED bs)
        end
      end
    end
  else out ctx.

(** A caller that feeds a message in pieces, each with the address it lies at. *)
Fixpoint sha3_updates (ctx : sha3_ctx) (ps : list (N * list N)) : option sha3_ctx :=
  match ps with
  | [] => Some ctx
  | (a, m) :: t => match sha3_update ctx a m with None => None | Some c => sha3_updates c t end
  end.
Definition sha3_digest (bits : nat) (ps : list (N * list N)) : option (list N) :=
  match sha3_updates (sha3_init bits) ps with
  | None => None
  | Some ctx => match sha3_final ctx with None => None | Some (_, d) => Some d end
  end.

(** hash.c:101-120, mem_hash for SHA-3, with the buffer at address [addr]. *)
Definition mem_hash_sha3 (bits : nat) (addr : N) (buf : list N) : option (list N) :=
  sha3_digest bits [(addr, buf)].
(** hash.c:62-66 and 70-77, hash_len. *)
Definition sha3_hash_len (bits : nat) : option nat :=
  if Nat.eqb bits 224 then Some 28%nat else if Nat.eqb bits 256 then Some 32%nat
  else if Nat.eqb bits 384 then Some 48%nat else if Nat.eqb bits 512 then Some 64%nat else None.
