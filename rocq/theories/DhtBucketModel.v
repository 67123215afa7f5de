(* The routing tree of the directory: buckets of contacts
   (src/ipcpd/unicast/dir/dht.c:559-590, 622-675, 1284-1466, 1850-1886). *)
From Coq Require Import NArith List Bool.
From Verif Require Import DhtModel.
Import ListNotations.
Open Scope N_scope.

(* dht.c struct bucket.  A bucket without children holds contacts and
   alternates; one with children holds none (split_bucket moves them all, as
   a byte is one of the 256 masks; alts is empty by its assertion).  depth
   and mask are the way from the root: they are passed along below.
   n_contacts and n_alts are the lengths of the lists.  The children are
   children[0 .. 255]. *)
Inductive bucket : Type :=
| Leaf (contacts alts : list contact)
| Node (children : N -> bucket).

(* dht.c:1284-1311 bucket_create *)
Definition bucket_create : bucket := Leaf [] [].

(* id[(depth * KAD_BETA) / CHAR_BIT] with KAD_BETA and CHAR_BIT both 8; the
   shift by (CHAR_BIT - KAD_BETA) - ((depth * KAD_BETA) & 7) is 0 and the mask
   0xFF.  None: read past the end of the id. *)
Definition id_byte (id : ident) (i : nat) : option N := nth_error id i.

(* dht.c:559-578 iter_bucket, 580-586 dht_get_bucket: the way from the root,
   one mask for each step, and the leaf.  None: undefined behaviour. *)
Fixpoint iter_bucket (b : bucket) (depth : nat) (id : ident) : option (list N * bucket) :=
  match b with
  | Leaf _ _ => Some ([], b)
  | Node ch =>
    match id_byte id depth with
    | None => None
    | Some byte =>
      match iter_bucket (ch byte) (S depth) id with
      | None => None
      | Some (p, l) => Some (byte :: p, l)
      end
    end
  end.

(* dht.c:1342-1360 bucket_has_id, for a bucket of this depth and mask: it
   looks at the byte number depth, although the bucket was reached by the
   byte number depth - 1. *)
Definition bucket_has_id (depth : nat) (mask : N) (id : ident) : option bool :=
  match depth with
  | O => Some true
  | S _ => match id_byte id depth with None => None | Some byte => Some (byte =? mask) end
  end.

(* Contacts of which bucket_has_id holds for the child of this mask; each is
   put at the head of the child's list (list_add, 1397). *)
Definition for_child (depth : nat) (mask : N) (cs : list contact) : list contact :=
  rev (filter (fun c => match id_byte (c_id c) depth with
                        | Some byte => byte =? mask | None => false end) cs).

(* All ids can be read at this place. *)
Definition readable (depth : nat) (cs : list contact) : bool :=
  forallb (fun c => match id_byte (c_id c) depth with Some _ => true | None => false end) cs.

(* dht.c:1363-1410 split_bucket, of a leaf of this depth with these contacts.
   A child that got all of them is split again.  None: an assertion fails
   (no contacts) or an id is read past its end.  fuel: the number of bytes
   that are left; when it is used up the ids cannot be read further. *)
Fixpoint split_bucket (fuel : nat) (depth : nat) (cs : list contact) : option bucket :=
  match fuel with
  | O => None
  | S fuel' =>
    match cs with
    | [] => None
    | c :: _ =>
      if readable (S depth) cs then
        match id_byte (c_id c) (S depth) with
        | None => None
        | Some i0 =>
          if Nat.eqb (length (for_child (S depth) i0 cs)) (length cs) then
            match split_bucket fuel' (S depth) (for_child (S depth) i0 cs) with
            | None => None
            | Some n => Some (Node (fun i => if i =? i0 then n
                                             else Leaf (for_child (S depth) i cs) []))
            end
          else Some (Node (fun i => Leaf (for_child (S depth) i cs) []))
        end
      else None
    end
  end.

(* dht.c:1431-1463, dht_update_bucket at the leaf.  self is dht->id, k dht->k,
   b dht->b.  Running out of memory is not modelled. *)
Definition update_leaf (k b : nat) (self : ident) (depth : nat) (mask : N)
  (cs alts : list contact) (c : contact) : option bucket :=
  let cs1 := filter (fun d => negb (c_addr d =? c_addr c)) cs in
  if Nat.eqb (length cs1) k then
    match bucket_has_id depth mask self with
    | None => None
    | Some true =>
      match alts with
      | [] => split_bucket (b - depth) depth (cs1 ++ [c])
      | _ => None
      end
    | Some false =>
      if Nat.eqb (length alts) k then Some (Leaf cs1 (tl alts ++ [c]))
      else Some (Leaf cs1 (alts ++ [c]))
    end
  else Some (Leaf (cs1 ++ [c]) alts).

(* dht.c:1413-1466 dht_update_bucket *)
Fixpoint update_bucket (k b : nat) (self : ident) (t : bucket) (depth : nat) (mask : N)
  (c : contact) : option bucket :=
  match t with
  | Leaf cs alts => update_leaf k b self depth mask cs alts c
  | Node ch =>
    match id_byte (c_id c) depth with
    | None => None
    | Some byte =>
      match update_bucket k b self (ch byte) (S depth) byte c with
      | None => None
      | Some n => Some (Node (fun i => if i =? byte then n else ch i))
      end
    end
  end.

Definition dht_update_bucket (k b : nat) (self : ident) (t : bucket) (id : ident) (addr : N)
  : option bucket :=
  update_bucket k b self t 0 0 (contact_create id addr).

(* The contacts of a bucket; one with children has none of its own. *)
Definition own_contacts (b : bucket) : list contact :=
  match b with Leaf cs _ => cs | Node _ => [] end.

(* The bucket that iter_bucket ends in and the children of its parent. *)
Fixpoint iter_parent (parent : option (N -> bucket)) (b : bucket) (depth : nat) (id : ident)
  : option (option (N -> bucket) * list contact) :=
  match b with
  | Leaf cs _ => Some (parent, cs)
  | Node ch =>
    match id_byte id depth with
    | None => None
    | Some byte => iter_parent (Some ch) (ch byte) (S depth) id
    end
  end.

Definition masks : list N := map N.of_nat (seq 0 256).

(* A copy of the contacts in the order of list_add_sorted: fails starts at 0
   again. *)
Definition add_all (key : ident) (cs : list contact) : list contact :=
  fold_left (fun l c => list_add_sorted l (contact_create (c_id c) (c_addr c)) key) cs [].

(* dht.c:622-675 dht_contact_list: at most k contacts, of the bucket itself
   if it is full or the root, else of the children of its parent.  None: an
   assertion fails.  (In the loops the count goes up by one for each contact
   and both end at k.) *)
Definition dht_contact_list (k : nat) (t : bucket) (key : ident) : option (list contact) :=
  match iter_parent None t 0 key with
  | None => None
  | Some (None, cs) => Some (add_all key (firstn k cs))
  | Some (Some ch, cs) =>
    let got := if Nat.eqb (length cs) k then firstn k cs
               else firstn k (flat_map (fun i => own_contacts (ch i)) masks) in
    if Nat.eqb (length got) k then Some (add_all key got) else None
  end.
