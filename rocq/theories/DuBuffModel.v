(** Model of the packet (struct shm_du_buff) operations of
    src/lib/shm_rdrbuff.c. *)
From Coq Require Import List NArith Bool.
Import ListNotations.
Open Scope N_scope.

Definition two64 : N := 2 ^ 64.
Definition DU_BUFF_HEADSPACE : N := 256.    (* config.h.in *)
Definition DU_BUFF_TAILSPACE : N := 32.

(** shm_rdrbuff.c:67-76, struct shm_du_buff, with the memory that follows it:
    [mem i] is the byte at [(uint8_t * ) (sdb + 1) + i].  The fields blocks,
    refs and idx play no part here (see RdrbuffModel). *)
Record sdb : Type := mk_sdb { size : N; du_head : N; du_tail : N; mem : N -> N }.

(** The caller's writes of the bytes [bs] from offset [off]. *)
Fixpoint wr (m : N -> N) (off : N) (bs : list N) : N -> N :=
  match bs with
  | [] => m
  | b :: t => wr (fun i => if i =? off then b else m i) (off + 1) t
  end.
(** The caller's reads of [n] bytes from offset [off]. *)
Fixpoint rd (m : N -> N) (off : N) (n : nat) : list N :=
  match n with O => [] | S k => m off :: rd m (off + 1) k end.

Definition blen (bs : list N) : N := N.of_nat (length bs).

(** shm_rdrbuff.c:288, 349-351 (and 440-442): a new packet, and the payload its
    owner writes into it. *)
Definition new_packet (m : N -> N) (payload : list N) : sdb :=
  mk_sdb (DU_BUFF_HEADSPACE + DU_BUFF_TAILSPACE + blen payload) DU_BUFF_HEADSPACE
         (DU_BUFF_HEADSPACE + blen payload) (wr m DU_BUFF_HEADSPACE payload).

(** shm_rdrbuff.c:527-532, shm_du_buff_len. *)
Definition du_len (s : sdb) : N := du_tail s - du_head s.

(** shm_rdrbuff.c:534-545, shm_du_buff_head_alloc, returning the offset ([None]
    is NULL). *)
Definition head_alloc (s : sdb) (n : N) : sdb * option N :=
  if du_head s <? n then (s, None)
  else let h := du_head s - n in (mk_sdb (size s) h (du_tail s) (mem s), Some h).

(** shm_rdrbuff.c:547-563, shm_du_buff_tail_alloc; the sum wraps at 2^64. *)
Definition tail_alloc (s : sdb) (n : N) : sdb * option N :=
  let e := (du_tail s + n) mod two64 in
  if size s <=? e then (s, None)
  else (mk_sdb (size s) (du_head s) e (mem s), Some (du_tail s)).

(** shm_rdrbuff.c:565-578, shm_du_buff_head_release; [None] is a failed
    assert. *)
Definition head_release (s : sdb) (n : N) : option (sdb * N) :=
  if du_tail s - du_head s <? n then None
  else Some (mk_sdb (size s) (du_head s + n) (du_tail s) (mem s), du_head s).

(** shm_rdrbuff.c:580-589, shm_du_buff_tail_release. *)
Definition tail_release (s : sdb) (n : N) : option (sdb * N) :=
  if du_tail s - du_head s <? n then None
  else let t := du_tail s - n in Some (mk_sdb (size s) (du_head s) t (mem s), t).

(** shm_rdrbuff.c:591-598, shm_du_buff_truncate. *)
Definition truncate (s : sdb) (len : N) : option sdb :=
  if size s <? len then None
  else Some (mk_sdb (size s) (du_head s) (du_head s + len) (mem s)).

(** What users of a packet do: push a header or trailer (allocate and fill it),
    pop one (release and read it), ask the length, read it all, cut it. *)
Inductive op : Type :=
| PushHead (bs : list N) | PushTail (bs : list N)
| PopHead (n : N) | PopTail (n : N)
| Len | ReadAll | Truncate (n : N).
Inductive res : Type := ROk | RNull | RBytes (bs : list N) | RLen (n : N).

Definition step (s : sdb) (o : op) : option (sdb * res) :=
  match o with
  | PushHead bs =>
      match head_alloc s (blen bs) with
      | (s', None) => Some (s', RNull)
      | (s', Some off) => Some (mk_sdb (size s') (du_head s') (du_tail s') (wr (mem s') off bs), ROk)
      end
  | PushTail bs =>
      match tail_alloc s (blen bs) with
      | (s', None) => Some (s', RNull)
      | (s', Some off) => Some (mk_sdb (size s') (du_head s') (du_tail s') (wr (mem s') off bs), ROk)
      end
  | PopHead n =>
      match head_release s n with
      | None => None
      | Some (s', off) => Some (s', RBytes (rd (mem s') off (N.to_nat n)))
      end
  | PopTail n =>
      match tail_release s n with
      | None => None
      | Some (s', off) => Some (s', RBytes (rd (mem s') off (N.to_nat n)))
      end
  | Len => Some (s, RLen (du_len s))
  | ReadAll => Some (s, RBytes (rd (mem s) (du_head s) (N.to_nat (du_len s))))
  | Truncate n => option_map (fun s' => (s', ROk)) (truncate s n)
  end.

Fixpoint run (s : sdb) (ops : list op) : option (sdb * list res) :=
  match ops with
  | [] => Some (s, [])
  | o :: t => match step s o with
              | None => None
              | Some (s', r) => option_map (fun x => (fst x, r :: snd x)) (run s' t)
              end
  end.
