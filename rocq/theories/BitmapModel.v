(** Model of the identifier pool of the library: src/lib/bitmap.c.

    The pool is a C array of 64-bit words ([size_t] on the supported 64-bit
    platforms).  An access outside that array is the outcome [None] of the
    model, never a default value. *)

From Coq Require Import List NArith ZArith Bool.
Import ListNotations.
Open Scope N_scope.

(** bitmap.c:32, BITS_PER_LONG. *)
Definition bits_per_long : N := 64.

(** bitmap.c:36, DIV_ROUND_UP. *)
Definition div_round_up (n d : N) : N := (n + d - 1) / d.

(** bitmap.c:93-98, struct bmp.  [offset] is an ssize_t; overflow of
    [offset + id] is not modelled (pools start at 0, 1, 2 or 64). *)
Record bmp : Type := mk_bmp {
  offset : Z;
  size   : N;
  words  : list N
}.

(** [addr[i]] for a word index: reading outside the array is [None]. *)
Definition word_at (ws : list N) (i : N) : option N := nth_error ws (N.to_nat i).

(** [addr[i] = w]: storing outside the array is [None]. *)
Fixpoint set_nth (ws : list N) (i : nat) (w : N) : option (list N) :=
  match ws, i with
  | [], _ => None
  | _ :: t, O => Some (w :: t)
  | x :: t, S j => option_map (cons x) (set_nth t j w)
  end.

(** bitmap.c:59-64, the loop [while (!(tmp & mask)) pos++].  There are at
    most 64 positions; running past them is the outcome [None]. *)
Fixpoint scan_bit (fuel : nat) (tmp pos : N) : option N :=
  match fuel with
  | O => None
  | S f => if N.testbit tmp pos then Some pos else scan_bit f tmp (pos + 1)
  end.

(** bitmap.c:49-57, the word loop.  [rest] is the array from index [start]
    on; [tmp = ~addr[start]]. *)
Fixpoint scan_words (rest : list N) (start nbits : N) : option N :=
  match rest with
  | [] => None
  | w :: rest' =>
      let tmp := N.lnot w bits_per_long in
      if tmp =? 0 then
        if div_round_up nbits bits_per_long <=? start + 1
        then Some nbits
        else scan_words rest' (start + 1) nbits
      else
        match scan_bit 64 tmp 0 with
        | Some pos => Some (start * bits_per_long + pos)
        | None => None
        end
  end.

(** bitmap.c:41-67, find_next_zero_bit. *)
Definition find_next_zero_bit (addr : list N) (nbits : N) : option N :=
  scan_words addr 0 nbits.

(** bitmap.c:75-82, bitmap_clear. *)
Definition bitmap_clear (map : list N) (start : N) : option (list N) :=
  match word_at map (start / bits_per_long) with
  | None => None
  | Some w =>
      set_nth map (N.to_nat (start / bits_per_long))
        (N.land w (N.lnot (N.shiftl 1 (start mod bits_per_long)) bits_per_long))
  end.

(** bitmap.c:84-91, bitmap_set. *)
Definition bitmap_set (map : list N) (start : N) : option (list N) :=
  match word_at map (start / bits_per_long) with
  | None => None
  | Some w =>
      set_nth map (N.to_nat (start / bits_per_long))
        (N.lor w (N.shiftl 1 (start mod bits_per_long)))
  end.

(** bitmap.c:100-122, bmp_create (allocation failure not modelled). *)
Definition bmp_create (bits : N) (off : Z) : bmp :=
  mk_bmp off bits (repeat 0 (N.to_nat (div_round_up bits bits_per_long))).

(** bitmap.c:134-139, bad_id. *)
Definition bad_id (b : bmp) : Z := (offset b - 1)%Z.

(** bitmap.c:141-154, bmp_allocate. *)
Definition bmp_allocate (b : bmp) : option (bmp * Z) :=
  match find_next_zero_bit (words b) (size b) with
  | None => None
  | Some id =>
      if size b <=? id then Some (b, bad_id b)
      else
        match bitmap_set (words b) id with
        | None => None
        | Some ws => Some (mk_bmp (offset b) (size b) ws, (Z.of_N id + offset b)%Z)
        end
  end.

(** bitmap.c:156-165, is_id_valid (note the [>] in the upper bound). *)
Definition is_id_valid (b : bmp) (id : Z) : bool :=
  negb ((id <? offset b)%Z || (offset b + Z.of_N (size b) <? id)%Z).

(** bitmap.c:176-182, bmp_is_id_valid. *)
Definition bmp_is_id_valid (b : bmp) (id : Z) : bool := is_id_valid b id.

(** bitmap.c:184-195, bmp_release. *)
Definition bmp_release (b : bmp) (id : Z) : option (bmp * Z) :=
  if negb (is_id_valid b id) then Some (b, (-1)%Z)
  else
    match bitmap_clear (words b) (Z.to_N (id - offset b)) with
    | None => None
    | Some ws => Some (mk_bmp (offset b) (size b) ws, 0%Z)
    end.

(** bitmap.c:167-174 and 197-203, is_id_used / bmp_is_id_used.  The caller
    passes an id not below the offset; for smaller ids the unsigned
    subtraction indexes far outside the array, which is [None] here. *)
Definition bmp_is_id_used (b : bmp) (id : Z) : option bool :=
  if (id <? offset b)%Z then None
  else
    let start := Z.to_N (id - offset b) in
    match word_at (words b) (start / bits_per_long) with
    | None => None
    | Some w => Some (negb (N.land w (N.shiftl 1 (start mod bits_per_long)) =? 0))
    end.
