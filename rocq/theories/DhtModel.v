(* The distributed hash table of the unicast IPCP: ids, contacts, lookups
   (src/ipcpd/unicast/dir/dht.c:59-90, 530-1008). *)
From Coq Require Import NArith List Bool.
Import ListNotations.
Open Scope N_scope.

(* dht.c:69-70, 68: KAD_ALPHA, KAD_K *)
Definition KAD_ALPHA : nat := 3.
Definition KAD_K : nat := 8.

(* An id or key: dht->b bytes (dht.c:2264, at least 8: 2136). *)
Notation ident := (list N).

(* dht.c struct contact.  t_seen is never read and is left out. *)
Record contact : Type := Contact { c_id : ident; c_addr : N; c_fails : N }.

(* dht.c:526-550 contact_create.  Running out of memory is not modelled. *)
Definition contact_create (id : ident) (addr : N) : contact := Contact id addr 0.

(* The first 8 bytes read as a big-endian number. *)
Definition be64 (id : ident) : N :=
  fold_left (fun a b => a * 256 + b) (firstn 8 id) 0.

(* dht.c:592-596 dist: the exclusive or of the first 8 bytes, converted to
   host order. *)
Definition dist (src dst : ident) : N := N.lxor (be64 src) (be64 dst).

(* memcmp(a, b, dht->b) == 0 *)
Fixpoint id_eqb (a b : ident) : bool :=
  match a, b with
  | [], [] => true
  | x :: a', y :: b' => (x =? y) && id_eqb a' b'
  | _, _ => false
  end.

(* dht.c:598-620 list_add_sorted: before the first element to which the new
   one is farther from the key; list_add_tail(&c->next, p). *)
Fixpoint list_add_sorted (l : list contact) (c : contact) (key : ident) : list contact :=
  match l with
  | [] => [c]
  | e :: l' =>
    if dist (c_id e) key <? dist (c_id c) key then c :: l
    else e :: list_add_sorted l' c key
  end.

(* dht.c:52-59 enum lookup_state *)
Inductive lookup_state : Type :=
  LU_NULL | LU_INIT | LU_PENDING | LU_UPDATE | LU_COMPLETE | LU_DESTROY.

(* dht.c struct lookup *)
Record lookup : Type := Lookup {
  l_key : ident; l_contacts : list contact; l_n : nat;
  l_cookies : list N; l_addrs : list N; l_state : lookup_state }.

(* dht.c:677-731 lookup_create; the contacts come from dht_contact_list. *)
Definition lookup_create (id : ident) (contacts : list contact) : lookup :=
  Lookup id contacts (length contacts) [] [] LU_INIT.

(* dht.c:853-869, the walk of lookup_update over the contacts: None if an
   element with the same id was met; else what was passed and what is left. *)
Fixpoint walk (key : ident) (c : contact) (l : list contact)
  : option (list contact * list contact) :=
  match l with
  | [] => Some ([], [])
  | e :: l' =>
    if id_eqb (c_id e) (c_id c) then None
    else if dist (c_id e) key <? dist (c_id c) key then Some ([], l)
    else match walk key c l' with
         | None => None
         | Some (a, b) => Some (e :: a, b)
         end
  end.

(* dht.c:845-889, one turn of the loop over the contacts of a response: the
   contacts, n_contacts, and whether mod was set.  pos is the number of
   elements passed. *)
Definition add_contact (k : nat) (key : ident) (l : list contact) (n : nat)
  (c : contact) : list contact * nat * bool :=
  match walk key c l with
  | None => (l, n, false)
  | Some (a, b) =>
    if Nat.ltb n k then (a ++ c :: b, S n, true)
    else if Nat.eqb (length a) k then (l, n, false)
    else (removelast (a ++ c :: b), n, true)
  end.

Fixpoint add_contacts (k : nat) (key : ident) (l : list contact) (n : nat)
  (mod_ : bool) (cs : list (ident * N)) : list contact * nat * bool :=
  match cs with
  | [] => (l, n, mod_)
  | (id, a) :: cs' =>
    let '(l1, n1, m1) := add_contact k key l n (contact_create id a) in
    add_contacts k key l1 n1 (mod_ || m1) cs'
  end.

(* Remove the first occurrence. *)
Fixpoint remove1 (x : N) (l : list N) : list N :=
  match l with
  | [] => []
  | y :: l' => if y =? x then l' else y :: remove1 x l'
  end.

(* dht.c:807-833, the first part of lookup_update: the cookie is taken off;
   with addresses in the response the lookup is complete.  The boolean says
   whether the second part follows.  (dht.c:1046-1075 dht_find_lookup has
   taken the cookie off already; taking it off twice changes nothing as
   cookies differ.) *)
Definition lookup_update1 (lu : lookup) (cookie : N) (addrs : list N) : lookup * bool :=
  let ck := remove1 cookie (l_cookies lu) in
  let lu1 := Lookup (l_key lu) (l_contacts lu) (l_n lu) ck (l_addrs lu) (l_state lu) in
  match l_state lu with
  | LU_COMPLETE => (lu1, false)
  | _ =>
    match addrs with
    | [] => (lu1, true)
    | _ =>
      (Lookup (l_key lu) (l_contacts lu) (l_n lu) ck
              (match l_addrs lu with [] => addrs | _ => l_addrs lu end)
              LU_COMPLETE, false)
    end
  end.

(* dht.c:843-904, the second part, once the state is not LU_INIT. *)
Definition lookup_update2 (k : nat) (lu : lookup) (cs : list (ident * N)) : lookup :=
  let '(l, n, m) := add_contacts k (l_key lu) (l_contacts lu) (l_n lu) false cs in
  Lookup (l_key lu) l n (l_cookies lu) (l_addrs lu)
         (match l_cookies lu with
          | [] => if m then LU_UPDATE else LU_COMPLETE
          | _ => LU_UPDATE
          end).

(* dht.c:948-976 lookup_new_addrs, over the contacts: the first KAD_ALPHA
   with fails == 0 are marked and taken. *)
Fixpoint new_addrs (n : nat) (l : list contact) : list contact * list contact :=
  match l with
  | [] => ([], [])
  | c :: l' =>
    match n with
    | O => (l, [])
    | S n' =>
      if c_fails c =? 0 then
        let c' := Contact (c_id c) (c_addr c) 1 in
        let '(r, t) := new_addrs n' l' in (c' :: r, c' :: t)
      else let '(r, t) := new_addrs n l' in (c :: r, t)
    end
  end.

(* The lookup afterwards and the contacts that are asked next. *)
Definition lookup_new_addrs (lu : lookup) : lookup * list contact :=
  let '(l, t) := new_addrs KAD_ALPHA (l_contacts lu) in
  (Lookup (l_key lu) l (l_n lu) (l_cookies lu) (l_addrs lu) (l_state lu), t).

(* dht.c:1654-1697 kad_find: a request was sent under this cookie. *)
Definition lookup_sent (lu : lookup) (cookie : N) : lookup :=
  Lookup (l_key lu) (l_contacts lu) (l_n lu) (l_cookies lu ++ [cookie])
         (l_addrs lu) (l_state lu).

(* dht.c:997-1027 lookup_wait: on entry; and when its time is over. *)
Definition lookup_wait_begin (lu : lookup) : lookup :=
  Lookup (l_key lu) (l_contacts lu) (l_n lu) (l_cookies lu) (l_addrs lu)
         (match l_state lu with
          | LU_INIT => LU_PENDING | LU_UPDATE => LU_PENDING | s => s end).
Definition lookup_wait_timeout (lu : lookup) : lookup :=
  Lookup (l_key lu) (l_contacts lu) (l_n lu) (l_cookies lu) (l_addrs lu) LU_COMPLETE.

(* dht.c:925-946 lookup_contact_addrs *)
Definition lookup_contact_addrs (lu : lookup) : list N := map c_addr (l_contacts lu).
