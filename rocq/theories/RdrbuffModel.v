(** Model of the shared packet pool: src/lib/shm_rdrbuff.c (configuration
    SHM_RDRB_MULTI_BLOCK, HAVE_ROBUST_MUTEX). *)
From Coq Require Import List NArith Bool.
Import ListNotations.
Open Scope N_scope.

(** shm_rdrbuff.c:67-76, struct shm_du_buff. *)
Record hdr : Type := mk_hdr {
  size : N; blocks : N; du_head : N; du_tail : N; refs : N; idx : N
}.
Definition set_size h v := mk_hdr v (blocks h) (du_head h) (du_tail h) (refs h) (idx h).
Definition set_blocks h v := mk_hdr (size h) v (du_head h) (du_tail h) (refs h) (idx h).
Definition set_du_head h v := mk_hdr (size h) (blocks h) v (du_tail h) (refs h) (idx h).
Definition set_du_tail h v := mk_hdr (size h) (blocks h) (du_head h) v (refs h) (idx h).
Definition set_refs h v := mk_hdr (size h) (blocks h) (du_head h) (du_tail h) v (idx h).
Definition set_idx h v := mk_hdr (size h) (blocks h) (du_head h) (du_tail h) (refs h) v.

(** shm_rdrbuff.c:78-85, struct shm_rdrbuff: [hdrs i] is the header that starts
    block [i] (idx_to_du_buff_ptr, line 56); payload bytes are not modelled
    here (see DuBuffModel). *)
Record rdrb : Type := mk_rdrb { hdrs : N -> hdr; head : N; tail : N }.

Section Rdrbuff.
  (** SHM_BUFFER_SIZE is [2 ^ LOG] (the code masks with SIZE - 1),
      SHM_RDRB_BLOCK_SIZE is [BS], [HDR] is sizeof(struct shm_du_buff). *)
  Variables LOG BS HDR : N.
  Definition SIZE : N := 2 ^ LOG.
  Definition OVERHEAD : N := 256 + 32.     (* line 46, DU_BUFF_OVERHEAD *)

  (** Field writes through a header pointer. *)
  Definition upd_hdr (i : N) (f : hdr -> hdr) (s : rdrb) : rdrb :=
    mk_rdrb (fun j => if j =? i then f (hdrs s j) else hdrs s j) (head s) (tail s).
  (** Writes through the head pointer: get_head_ptr, lines 48-49. *)
  Definition upd_head_hdr (f : hdr -> hdr) (s : rdrb) : rdrb := upd_hdr (head s) f s.
  Definition set_head (v : N) (s : rdrb) : rdrb := mk_rdrb (hdrs s) v (tail s).
  Definition set_tail (v : N) (s : rdrb) : rdrb := mk_rdrb (hdrs s) (head s) v.

  (** Lines 59-61, shm_rdrb_used. *)
  Definition used (s : rdrb) : N := N.land (head s + SIZE - tail s + 1) (SIZE - 1).
  (** Lines 63-64, shm_rdrb_free. *)
  Definition free (s : rdrb) (i : N) : bool := used s + i <? SIZE.
  (** Lines 66-67, shm_rdrb_empty. *)
  Definition empty (s : rdrb) : bool := tail s =? head s.

  (** Lines 304-307: [while (sz > 0) { sz -= BLOCK_SIZE; ++blocks; }] computes
      the quotient rounded up (sz is positive and below 2^63). *)
  Definition n_blocks (len : N) : N := (OVERHEAD + len + HDR + BS - 1) / BS.

  (** Lines 87-101, garbage_collect: at most [fuel] iterations. [None]: still
      not finished. *)
  Fixpoint gc (fuel : nat) (s : rdrb) : option rdrb :=
    if negb (empty s) && (refs (hdrs s (tail s)) =? 0) then
      match fuel with
      | O => None
      | S f => gc f (set_tail (N.land (tail s + blocks (hdrs s (tail s))) (SIZE - 1)) s)
      end
    else Some s.
  Definition garbage_collect (s : rdrb) : option rdrb := gc (N.to_nat SIZE) s.

  (** The first [k] iterations only (a crash in the middle). *)
  Fixpoint gc_upto (k : nat) (s : rdrb) : rdrb :=
    match k with
    | O => s
    | S f => if negb (empty s) && (refs (hdrs s (tail s)) =? 0)
             then gc_upto f (set_tail (N.land (tail s + blocks (hdrs s (tail s))) (SIZE - 1)) s)
             else s
    end.

  (** Lines 103-110, sanitize: run by whoever takes the lock next after its
      holder died. refs is a size_t, so the decrement wraps. *)
  Definition sanitize (s : rdrb) : option rdrb :=
    garbage_collect (upd_head_hdr (fun h => set_refs h ((refs h + (2 ^ 64 - 1)) mod 2 ^ 64)) s).

  (** Lines 316-317 (and 393-394): padding needed in this state. *)
  Definition pad_needed (s : rdrb) (nb : N) : N :=
    if SIZE <? nb + head s then SIZE - head s else 0.

  (** Lines 328-338 and 340-349 (and 407-429): the stores done under the lock,
      in program order. *)
  Definition commit_effects (nb pad : N) : list (rdrb -> rdrb) :=
    (if pad =? 0 then [] else
       [upd_head_hdr (fun h => set_size h 0);
        upd_head_hdr (fun h => set_blocks h pad);
        upd_head_hdr (fun h => set_refs h 0);
        upd_head_hdr (fun h => set_du_head h 0);
        upd_head_hdr (fun h => set_du_tail h 0);
        (fun s => upd_head_hdr (fun h => set_idx h (head s)) s);
        set_head 0]) ++
    [upd_head_hdr (fun h => set_refs h 1);
     (fun s => upd_head_hdr (fun h => set_idx h (head s)) s);
     upd_head_hdr (fun h => set_blocks h nb);
     (fun s => set_head (N.land (head s + nb) (SIZE - 1)) s)].
  Definition apply_all (fs : list (rdrb -> rdrb)) (s : rdrb) : rdrb :=
    fold_left (fun s f => f s) fs s.

  (** Where the packet's header is: the head after padding. *)
  Definition packet_pos (s : rdrb) (pad : N) : N := if pad =? 0 then head s else 0.

  (** Lines 354-356: the owner's stores after unlocking. Modelled as part of
      the same step: no one else uses the packet before alloc returns. *)
  Definition owner_stores (i len : N) (s : rdrb) : rdrb :=
    upd_hdr i (fun h => set_du_tail (set_du_head (set_size h (OVERHEAD + len)) 256) (256 + len)) s.

  Definition commit (s : rdrb) (len pad : N) : rdrb * N :=
    let i := packet_pos s pad in
    (owner_stores i len (apply_all (commit_effects (n_blocks len) pad) s), i).

  (** Lines 281-358, shm_rdrbuff_alloc: [None] is -EAGAIN, [Some] the index. *)
  Definition alloc (s : rdrb) (len : N) : rdrb * option N :=
    let pad := pad_needed s (n_blocks len) in
    if free s (n_blocks len + pad)
    then let (s', i) := commit s len pad in (s', Some i)
    else (s, None).

  (** Lines 360-450, shm_rdrbuff_alloc_b, split at the condition wait: it either
      returns an index or waits, remembering its padblocks. *)
  Inductive outcome : Type := Done (i : N) | Wait (pad : N).
  (** Lines 393-396: first test. *)
  Definition alloc_b_begin (s : rdrb) (len : N) : rdrb * outcome :=
    let pad := pad_needed s (n_blocks len) in
    if free s (n_blocks len + pad)
    then let (s', i) := commit s len pad in (s', Done i)
    else (s, Wait pad).
  (** Lines 401-404 and 396: after a wake-up. *)
  Definition alloc_b_wake (s : rdrb) (len pad : N) : rdrb * outcome :=
    let pad' := if SIZE <? n_blocks len + head s then SIZE - head s else pad in
    if free s (n_blocks len + pad')
    then let (s', i) := commit s len pad' in (s', Done i)
    else (s, Wait pad').

  (** Lines 477-504, shm_rdrbuff_remove. The outer [None]: garbage collection
      does not terminate. *)
  Definition remove (s : rdrb) (i : N) : option rdrb :=
    if refs (hdrs s i) =? 1 then
      let s1 := upd_hdr i (fun h => set_refs h 0) s in
      if i =? tail s1 then garbage_collect s1 else Some s1
    else Some s.

  (** A crash in remove: after its store to refs and [k] iterations of garbage
      collection. *)
  Definition crash_remove (s : rdrb) (i : N) (k : nat) : rdrb :=
    if refs (hdrs s i) =? 1 then
      let s1 := upd_hdr i (fun h => set_refs h 0) s in
      if i =? tail s1 then gc_upto k s1 else s1
    else s.
  (** A crash in alloc: after the first [k] stores under the lock. *)
  Definition crash_alloc (s : rdrb) (len : N) (k : nat) : rdrb :=
    let pad := pad_needed s (n_blocks len) in
    if free s (n_blocks len + pad) then apply_all (firstn k (commit_effects (n_blocks len) pad)) s else s.

  (** Lines 599-604, shm_du_buff_wait_ack, and 606-610, shm_du_buff_ack. *)
  Definition wait_ack (s : rdrb) (i : N) : rdrb := upd_hdr i (fun h => set_refs h (refs h + 1)) s.
  Definition ack (s : rdrb) (i : N) : rdrb := upd_hdr i (fun h => set_refs h (refs h - 1)) s.
End Rdrbuff.
