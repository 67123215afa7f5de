(** Model of the forwarding table: src/ipcpd/unicast/pff/pft.c. *)

From Coq Require Import List NArith ZArith Bool.
Import ListNotations.
Open Scope N_scope.

(** errno.h values used by the file. *)
Definition EPERM : Z := 1.

Section Pft.
  (** What an entry holds for its destination: in the code the pointer [fds]
      and [len]; the memory it points to is owned by the entry, so an entry is
      modelled as holding the contents. *)
  Variable V : Type.

  (** pft.c:38-48, struct pft_entry and struct pft.  A bucket is the list of its
      entries in list order; [hash] is [None] if hash_key is false, and
      otherwise the function of lines 115-122 (any function). *)
  Record pft : Type := mk_pft {
    buckets      : list (list (N * V));
    hash_fn      : option (N -> N);
    buckets_size : N
  }.

  Definition two64 : N := 2 ^ 64.

  (** pft.c:59-66: round up to a power of two, on uint64_t. *)
  Definition smear (x s : N) : N := N.lor x (N.shiftr x s).
  Definition round_up_pow2 (n : N) : N :=
    (smear (smear (smear (smear (smear (smear (n - 1) 1) 2) 4) 8) 16) 32 + 1) mod two64.

  (** pft.c:50-84, pft_create; [None] is the NULL return.  The loop on lines
      80-81 uses an unsigned int counter; it is modelled for the sizes it
      reaches, below 2^32 (see the theorems' hypothesis).  Allocation failure
      is not modelled. *)
  Definition pft_create (n : N) (h : option (N -> N)) : option pft :=
    if n =? 0 then None
    else let b := round_up_pow2 n in
         Some (mk_pft (repeat [] (N.to_nat b)) h b).

  (** pft.c:96-113, pft_flush. *)
  Definition pft_flush (p : pft) : pft :=
    mk_pft (map (fun _ => []) (buckets p)) (hash_fn p) (buckets_size p).

  (** pft.c:124-131, calc_key. *)
  Definition calc_key (p : pft) (dst : N) : N :=
    N.land (match hash_fn p with Some h => h dst | None => dst end) (buckets_size p - 1).

  (** Access to [pft->buckets[key]]: out of bounds is [None]. *)
  Definition get_bucket (p : pft) (key : N) : option (list (N * V)) :=
    nth_error (buckets p) (N.to_nat key).

  Fixpoint upd {A} (l : list A) (i : nat) (x : A) : list A :=
    match l, i with
    | [], _ => []
    | _ :: t, O => x :: t
    | y :: t, S j => y :: upd t j x
    end.

  Definition set_bucket (p : pft) (key : N) (b : list (N * V)) : pft :=
    mk_pft (upd (buckets p) (N.to_nat key) b) (hash_fn p) (buckets_size p).

  (** The search loops over a bucket (lines 146-150, 178-185, 203-211). *)
  Fixpoint bucket_find (b : list (N * V)) (dst : N) : option V :=
    match b with
    | [] => None
    | (d, v) :: t => if d =? dst then Some v else bucket_find t dst
    end.

  Fixpoint bucket_remove (b : list (N * V)) (dst : N) : list (N * V) :=
    match b with
    | [] => []
    | (d, v) :: t => if d =? dst then t else (d, v) :: bucket_remove t dst
    end.

  (** Writing through the pointer an entry holds (used by the multipath and
      alternate policies). *)
  Fixpoint bucket_modify (b : list (N * V)) (dst : N) (f : V -> V) : list (N * V) :=
    match b with
    | [] => []
    | (d, v) :: t => if d =? dst then (d, f v) :: t else (d, v) :: bucket_modify t dst f
    end.

  (** pft.c:133-164, pft_insert.  [None]: out-of-bounds access. *)
  Definition pft_insert (p : pft) (dst : N) (v : V) : option (pft * Z) :=
    let key := calc_key p dst in
    match get_bucket p key with
    | None => None
    | Some b =>
        match bucket_find b dst with
        | Some _ => Some (p, (- EPERM)%Z)
        | None => Some (set_bucket p key ((dst, v) :: b), 0%Z)
        end
    end.

  (** pft.c:166-190, pft_lookup: [Some None] is the return value -1. *)
  Definition pft_lookup (p : pft) (dst : N) : option (option V) :=
    match get_bucket p (calc_key p dst) with
    | None => None
    | Some b => Some (bucket_find b dst)
    end.

  (** pft.c:192-216, pft_delete. *)
  Definition pft_delete (p : pft) (dst : N) : option (pft * Z) :=
    let key := calc_key p dst in
    match get_bucket p key with
    | None => None
    | Some b =>
        match bucket_find b dst with
        | Some _ => Some (set_bucket p key (bucket_remove b dst), 0%Z)
        | None => Some (p, (-1)%Z)
        end
    end.

  (** Lookup followed by a write through the returned pointer. *)
  Definition pft_modify (p : pft) (dst : N) (f : V -> V) : option pft :=
    let key := calc_key p dst in
    match get_bucket p key with
    | None => None
    | Some b => Some (set_bucket p key (bucket_modify b dst f))
    end.

  (** Histories of calls and their observable results. *)
  Inductive op : Type := Insert (dst : N) (v : V) | Delete (dst : N) | Flush | Lookup (dst : N).
  Inductive res : Type := RInt (z : Z) | RVal (v : option V) | RUnit.

  Definition step (p : pft) (o : op) : option (pft * res) :=
    match o with
    | Insert d v => match pft_insert p d v with Some (p', r) => Some (p', RInt r) | None => None end
    | Delete d => match pft_delete p d with Some (p', r) => Some (p', RInt r) | None => None end
    | Flush => Some (pft_flush p, RUnit)
    | Lookup d => match pft_lookup p d with Some r => Some (p, RVal r) | None => None end
    end.

  Fixpoint run (p : pft) (ops : list op) : option (list res) :=
    match ops with
    | [] => Some []
    | o :: t =>
        match step p o with
        | None => None
        | Some (p', r) => option_map (cons r) (run p' t)
        end
    end.
End Pft.

Arguments mk_pft {V}. Arguments buckets {V}. Arguments hash_fn {V}. Arguments buckets_size {V}.
Arguments pft_create {V}. Arguments pft_flush {V}. Arguments calc_key {V}. Arguments get_bucket {V}.
Arguments set_bucket {V}. Arguments bucket_find {V}. Arguments bucket_remove {V}.
Arguments bucket_modify {V}. Arguments pft_insert {V}. Arguments pft_lookup {V}.
Arguments pft_delete {V}. Arguments pft_modify {V}. Arguments Insert {V}. Arguments Delete {V}.
Arguments Flush {V}. Arguments Lookup {V}. Arguments RInt {V}. Arguments RVal {V}. Arguments RUnit {V}.
Arguments step {V}. Arguments run {V}.
