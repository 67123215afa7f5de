(** Model of src/lib/md5.c and of the MD5 case of mem_hash in src/lib/hash.c, the
    hashing that is used when the library is built without libgcrypt.  Little-endian
    machine: htole32 is the identity.  Reading 32-bit words at addresses that are not
    a multiple of four is taken to work, as it does on the usual machines. *)
From Coq Require Import List Arith NArith Bool.
From Verif Require Import Bytes.
Import ListNotations.
Open Scope N_scope.

Definition w32 (x : N) : N := x mod 2 ^ 32.

(** md5.c:53, ROTL32. *)
Definition rotl32 (x n : N) : N := N.lxor (w32 (N.shiftl x n)) (N.shiftr x (32 - n)).

(** md5.c:66-69, MD5_F, MD5_G, MD5_H and MD5_I. *)
Definition md5_F (x y z : N) : N := N.lxor (N.land (N.lxor y z) x) z.
Definition md5_G (x y z : N) : N := N.lor (N.land x z) (N.land y (N.lnot z 32)).
Definition md5_H (x y z : N) : N := N.lxor (N.lxor x y) z.
Definition md5_I (x y z : N) : N := N.lxor y (N.lor x (N.lnot z 32)).

(** md5.c:72-94, MD5_ROUND1 to MD5_ROUND4: the macro's number, the registers in the
    order of the arguments, the word of the block, the rotation and the constant. *)
Record md5_step := mk_step {
  st_round : nat; st_a : nat; st_b : nat; st_c : nat; st_d : nat;
  st_k : nat; st_s : N; st_ac : N
}.
Definition ra := 0%nat. Definition rb := 1%nat. Definition rc := 2%nat. Definition rd := 3%nat.
Fixpoint setr (l : list N) (i : nat) (v : N) : list N :=
  match l, i with
  | [], _ => []
  | _ :: t, O => v :: t
  | a :: t, S k => a :: setr t k v
  end.
Definition md5_do (x : list N) (regs : list N) (s : md5_step) : list N :=
  let b := nth (st_b s) regs 0 in
  let c := nth (st_c s) regs 0 in
  let d := nth (st_d s) regs 0 in
  let f := match st_round s with
           | 1%nat => md5_F | 2%nat => md5_G | 3%nat => md5_H | _ => md5_I
           end b c d in
  let a := w32 (nth (st_a s) regs 0 + (w32 (w32 (f + nth (st_k s) x 0) + st_ac s))) in
  let a := rotl32 a (st_s s) in
  setr regs (st_a s) (w32 (a + b)).

(** md5.c:117-183, the 64 steps of rhash_md5_process_block. *)
Definition md5_steps : list md5_step :=
  [
   mk_step 1 ra rb rc rd 0 7 0xd76aa478;
   mk_step 1 rd ra rb rc 1 12 0xe8c7b756;
   mk_step 1 rc rd ra rb 2 17 0x242070db;
   mk_step 1 rb rc rd ra 3 22 0xc1bdceee;
   mk_step 1 ra rb rc rd 4 7 0xf57c0faf;
   mk_step 1 rd ra rb rc 5 12 0x4787c62a;
   mk_step 1 rc rd ra rb 6 17 0xa8304613;
   mk_step 1 rb rc rd ra 7 22 0xfd469501;
   mk_step 1 ra rb rc rd 8 7 0x698098d8;
   mk_step 1 rd ra rb rc 9 12 0x8b44f7af;
   mk_step 1 rc rd ra rb 10 17 0xffff5bb1;
   mk_step 1 rb rc rd ra 11 22 0x895cd7be;
   mk_step 1 ra rb rc rd 12 7 0x6b901122;
   mk_step 1 rd ra rb rc 13 12 0xfd987193;
   mk_step 1 rc rd ra rb 14 17 0xa679438e;
   mk_step 1 rb rc rd ra 15 22 0x49b40821;
   mk_step 2 ra rb rc rd 1 5 0xf61e2562;
   mk_step 2 rd ra rb rc 6 9 0xc040b340;
   mk_step 2 rc rd ra rb 11 14 0x265e5a51;
   mk_step 2 rb rc rd ra 0 20 0xe9b6c7aa;
   mk_step 2 ra rb rc rd 5 5 0xd62f105d;
   mk_step 2 rd ra rb rc 10 9 0x2441453;
   mk_step 2 rc rd ra rb 15 14 0xd8a1e681;
   mk_step 2 rb rc rd ra 4 20 0xe7d3fbc8;
   mk_step 2 ra rb rc rd 9 5 0x21e1cde6;
   mk_step 2 rd ra rb rc 14 9 0xc33707d6;
   mk_step 2 rc rd ra rb 3 14 0xf4d50d87;
   mk_step 2 rb rc rd ra 8 20 0x455a14ed;
   mk_step 2 ra rb rc rd 13 5 0xa9e3e905;
   mk_step 2 rd ra rb rc 2 9 0xfcefa3f8;
   mk_step 2 rc rd ra rb 7 14 0x676f02d9;
   mk_step 2 rb rc rd ra 12 20 0x8d2a4c8a;
   mk_step 3 ra rb rc rd 5 4 0xfffa3942;
   mk_step 3 rd ra rb rc 8 11 0x8771f681;
   mk_step 3 rc rd ra rb 11 16 0x6d9d6122;
   mk_step 3 rb rc rd ra 14 23 0xfde5380c;
   mk_step 3 ra rb rc rd 1 4 0xa4beea44;
   mk_step 3 rd ra rb rc 4 11 0x4bdecfa9;
   mk_step 3 rc rd ra rb 7 16 0xf6bb4b60;
   mk_step 3 rb rc rd ra 10 23 0xbebfbc70;
   mk_step 3 ra rb rc rd 13 4 0x289b7ec6;
   mk_step 3 rd ra rb rc 0 11 0xeaa127fa;
   mk_step 3 rc rd ra rb 3 16 0xd4ef3085;
   mk_step 3 rb rc rd ra 6 23 0x4881d05;
   mk_step 3 ra rb rc rd 9 4 0xd9d4d039;
   mk_step 3 rd ra rb rc 12 11 0xe6db99e5;
   mk_step 3 rc rd ra rb 15 16 0x1fa27cf8;
   mk_step 3 rb rc rd ra 2 23 0xc4ac5665;
   mk_step 4 ra rb rc rd 0 6 0xf4292244;
   mk_step 4 rd ra rb rc 7 10 0x432aff97;
   mk_step 4 rc rd ra rb 14 15 0xab9423a7;
   mk_step 4 rb rc rd ra 5 21 0xfc93a039;
   mk_step 4 ra rb rc rd 12 6 0x655b59c3;
   mk_step 4 rd ra rb rc 3 10 0x8f0ccc92;
   mk_step 4 rc rd ra rb 10 15 0xffeff47d;
   mk_step 4 rb rc rd ra 1 21 0x85845dd1;
   mk_step 4 ra rb rc rd 8 6 0x6fa87e4f;
   mk_step 4 rd ra rb rc 15 10 0xfe2ce6e0;
   mk_step 4 rc rd ra rb 6 15 0xa3014314;
   mk_step 4 rb rc rd ra 13 21 0x4e0811a1;
   mk_step 4 ra rb rc rd 4 6 0xf7537e82;
   mk_step 4 rd ra rb rc 11 10 0xbd3af235;
   mk_step 4 rc rd ra rb 2 15 0x2ad7d2bb;
   mk_step 4 rb rc rd ra 9 21 0xeb86d391
  ].
(** md5.c:109-189, rhash_md5_process_block; the block is given as its 64 bytes. *)
Definition words16 (buf : list N) : list N :=
  map (fun i => unle (firstn 4 (skipn (4 * i) buf))) (seq 0 16).
Definition md5_process (h : list N) (buf : list N) : list N :=
  let r := fold_left (md5_do (words16 buf)) md5_steps h in
  [w32 (nth 0 h 0 + nth 0 r 0); w32 (nth 1 h 0 + nth 1 r 0);
   w32 (nth 2 h 0 + nth 2 r 0); w32 (nth 3 h 0 + nth 3 r 0)].

(** md5.h:46-54, struct md5_ctx. *)
Record md5_ctx := mk_md5 {
  m_msg : list N;
  m_len : N;
  m_hash : list N
}.
(** md5.c:55-64, rhash_md5_init.  It does not write the buffer: [junk] is what the
    64 bytes happen to contain. *)
Definition md5_init (junk : list N) : md5_ctx :=
  mk_md5 junk 0 [0x67452301; 0xefcdab89; 0x98badcfe; 0x10325476].

(** md5.c:96-107, le32_copy of [length] bytes from the start of the memory [from] to
    offset [index] of [to]: whole words are copied, so that the last one may reach
    beyond [length].  [None] if a word is read outside of the object [from] or
    written outside of the object [to]. *)
Definition up4 (n : nat) : nat := (4 * ((n + 3) / 4))%nat.
Definition le32_copy (to : list N) (index : nat) (from : list N) (length : nat) : option (list N) :=
  match get from 0 (up4 length) with
  | None => None
  | Some bs => put to index bs
  end.

(** md5.c:215-229, the loop over whole blocks and the copy of the left-overs.  The
    message is the first [size] bytes of the memory [mem]. *)
Fixpoint md5_blocks (fuel : nat) (hash buf : list N) (mem : list N) (size : nat)
  : option (list N * list N) :=
  match fuel with
  | O => None
  | S fuel =>
    if Nat.leb 64 size then
      match le32_copy buf 0 mem 64 with
      | None => None
      | Some buf => md5_blocks fuel (md5_process hash buf) buf (skipn 64 mem) (size - 64)
      end
    else if Nat.eqb size 0 then Some (hash, buf)
    else match le32_copy buf 0 mem size with None => None | Some buf => Some (hash, buf) end
  end.

(** md5.c:191-230, rhash_md5_update for the bytes [msg], which are followed in the
    same object by the bytes [slack]. *)
Definition md5_update (ctx : md5_ctx) (msg slack : list N) : option md5_ctx :=
  let index := N.to_nat (N.land (m_len ctx) 63) in
  let len := (m_len ctx + N.of_nat (length msg)) mod 2 ^ 64 in
  let mem := msg ++ slack in
  let size := length msg in
  let go hash buf mem size :=
    match md5_blocks (S size) hash buf mem size with
    | None => None
    | Some (hash, buf) => Some (mk_md5 buf len hash)
    end in
  if Nat.eqb index 0 then go (m_hash ctx) (m_msg ctx) mem size
  else
    let left := (64 - index)%nat in
    match le32_copy (m_msg ctx) index mem (if Nat.ltb size left then size else left) with
    | None => None
    | Some buf =>
      if Nat.ltb size left then Some (mk_md5 buf len (m_hash ctx))
      else go (md5_process (m_hash ctx) buf) buf (skipn left mem) (size - left)%nat
    end.

(** Words of the buffer. *)
Definition getw (buf : list N) (i : nat) : N := unle (firstn 4 (skipn (4 * i) buf)).
Definition setw (buf : list N) (i : nat) (v : N) : option (list N) := put buf (4 * i) (le 4 v).
(** md5.c:241-243 and 249-250, the loops that clear the words from [i] up to [n]. *)
Fixpoint clear_words (k i : nat) (buf : list N) : option (list N) :=
  match k with
  | O => Some buf
  | S k => match setw buf i 0 with None => None | Some buf => clear_words k (S i) buf end
  end.
(** md5.c:232-258, rhash_md5_final: the digest.  0x80 << 24 overflows an int, which
    gcc and clang define to be 0x80000000. *)
Definition md5_final (ctx : md5_ctx) : option (list N) :=
  let index := N.to_nat (N.shiftr (N.land (m_len ctx) 63) 2) in
  let shift := N.land (m_len ctx) 3 * 8 in
  let w := N.land (getw (m_msg ctx) index) (N.lnot (w32 (N.shiftl 0xFFFFFFFF shift)) 32) in
  let w := N.lxor w (w32 (N.shiftl 0x80 shift)) in
  match setw (m_msg ctx) index w with
  | None => None
  | Some buf =>
    let index := S index in
    let r :=
      if Nat.ltb 14 index then
        match clear_words (16 - index) index buf with
        | None => None
        | Some buf => Some (0%nat, buf, md5_process (m_hash ctx) buf)
        end
      else Some (index, buf, m_hash ctx) in
    match r with
    | None => None
    | Some (index, buf, hash) =>
      match clear_words (14 - index) index buf with
      | None => None
      | Some buf =>
        match setw buf 14 (w32 (N.shiftl (m_len ctx) 3 mod 2 ^ 64)) with
        | None => None
        | Some buf =>
          match setw buf 15 (w32 (N.shiftr (m_len ctx) 29)) with
          | None => None
          | Some buf => Some (flat_map (le 4) (md5_process hash buf))
          end
        end
      end
    end
  end.

(** A caller that feeds a message in pieces, each followed by some slack. *)
Fixpoint md5_updates (ctx : md5_ctx) (ps : list (list N * list N)) : option md5_ctx :=
  match ps with
  | [] => Some ctx
  | (m, s) :: t => match md5_update ctx m s with None => None | Some c => md5_updates c t end
  end.
Definition md5_digest (junk : list N) (ps : list (list N * list N)) : option (list N) :=
  match md5_updates (md5_init junk) ps with None => None | Some ctx => md5_final ctx end.
(** hash.c:96-100, mem_hash for MD5. *)
Definition mem_hash_md5 (junk buf slack : list N) : option (list N) := md5_digest junk [(buf, slack)].
