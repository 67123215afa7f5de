(* What a node of the directory stores for others
   (src/ipcpd/unicast/dir/dht.c:1077-1252, 1542-1594, 1888-1949, 2054-2086,
   2383-2412). *)
From Coq Require Import NArith ZArith List Bool.
From Verif Require Import DhtModel.
Import ListNotations.
Open Scope Z_scope.

(* dht.c:71 KAD_T_REPL *)
Definition KAD_T_REPL : Z := 900.

(* dht.c struct val *)
Record val : Type := Val { v_addr : N; v_exp : Z; v_rep : Z }.

(* dht.c struct dht_entry; n_vals is a size_t, see sub_size below. *)
Record entry : Type := Entry { e_key : ident; e_vals : list val; e_n : N }.

(* dht.c struct dht: entries, addr, t_expire, t_replic. *)
Record dht : Type := Dht { d_entries : list entry; d_addr : N; d_expire : Z; d_replic : Z }.

(* --n_vals on a size_t of 64 bits *)
Definition dec_size (n : N) : N := (if n =? 0 then 18446744073709551615 else n - 1)%N.

(* dht.c:1077-1095 val_create *)
Definition val_create (now : Z) (addr : N) (exp : Z) : val :=
  Val addr (now + exp) (now + KAD_T_REPL).

(* dht.c:1190-1200, the walk of dht_entry_add_addr: None if the address is
   not there. *)
Fixpoint refresh (now : Z) (addr : N) (exp : Z) (l : list val) : option (list val) :=
  match l with
  | [] => None
  | v :: l' =>
    if (v_addr v =? addr)%N then
      Some ((if v_exp v <? now + exp then Val addr (now + exp) (now + KAD_T_REPL) else v) :: l')
    else match refresh now addr exp l' with
         | None => None
         | Some l2 => Some (v :: l2)
         end
  end.

(* dht.c:1181-1211 dht_entry_add_addr *)
Definition dht_entry_add_addr (now : Z) (e : entry) (addr : N) (exp : Z) : entry :=
  match refresh now addr exp (e_vals e) with
  | Some l => Entry (e_key e) l (e_n e)
  | None => Entry (e_key e) (val_create now addr exp :: e_vals e) (e_n e + 1)
  end.

(* dht.c:1220-1227, the loop of dht_entry_del_addr *)
Fixpoint del_vals (addr : N) (l : list val) (n : N) : list val * N :=
  match l with
  | [] => ([], n)
  | v :: l' =>
    if (v_addr v =? addr)%N then del_vals addr l' (dec_size n)
    else let '(r, n') := del_vals addr l' n in (v :: r, n')
  end.

(* dht.c:1214-1235 dht_entry_del_addr: None if the entry is destroyed. *)
Definition dht_entry_del_addr (e : entry) (addr : N) : option entry :=
  let '(l, n) := del_vals addr (e_vals e) (e_n e) in
  if (n =? 0)%N then None else Some (Entry (e_key e) l n).

(* dht.c:1542-1554 dht_find_entry *)
Fixpoint dht_find_entry (l : list entry) (key : ident) : option entry :=
  match l with
  | [] => None
  | e :: l' => if id_eqb key (e_key e) then Some e else dht_find_entry l' key
  end.

(* The entry that dht_find_entry finds is changed in place, or taken out. *)
Fixpoint change_entry (l : list entry) (key : ident) (f : entry -> option entry) : list entry :=
  match l with
  | [] => []
  | e :: l' =>
    if id_eqb key (e_key e) then match f e with Some e' => e' :: l' | None => l' end
    else e :: change_entry l' key f
  end.

Definition set_entries (d : dht) (l : list entry) : dht :=
  Dht l (d_addr d) (d_expire d) (d_replic d).

(* dht.c:1556-1594 kad_add with one contact. *)
Definition kad_add (now : Z) (d : dht) (key : ident) (addr : N) (exp : Z) : dht :=
  match dht_find_entry (d_entries d) key with
  | Some _ =>
    set_entries d (change_entry (d_entries d) key
                     (fun e => Some (dht_entry_add_addr now e addr exp)))
  | None =>
    set_entries d (dht_entry_add_addr now (Entry key [] 0) addr exp :: d_entries d)
  end.

(* dht.c:1888-1902 dht_del *)
Definition dht_del (d : dht) (key : ident) (addr : N) : dht :=
  match dht_find_entry (d_entries d) key with
  | None => d
  | Some _ =>
    set_entries d (change_entry (d_entries d) key (fun e => dht_entry_del_addr e addr))
  end.

(* dht.c:2065-2085, the inner loop of work over the values of an entry: the
   values; what it publishes (address, lifetime); dht->t_expire.  The lock is
   let go during kad_publish (2080-2082); here the publications come out as a
   list, and what other threads, or kad_publish itself, store meanwhile are
   steps of their own before or after. *)
Fixpoint sweep_vals (now replic : Z) (expire : Z) (l : list val)
  : list val * list (N * Z) * Z :=
  match l with
  | [] => ([], [], expire)
  | v :: l' =>
    if v_exp v <? now then sweep_vals now replic expire l'
    else if v_rep v <? now then
      let expire1 := now in
      let '(r, p, x) := sweep_vals now replic expire1 l' in
      (Val (v_addr v) (v_exp v) (now + replic) :: r, (v_addr v, expire1) :: p, x)
    else
      let '(r, p, x) := sweep_vals now replic expire l' in (v :: r, p, x)
  end.

(* dht.c:2056-2086, the loop of work over the entries: n_vals stays as it is. *)
Fixpoint sweep_entries (now replic expire : Z) (l : list entry)
  : list entry * list (ident * N * Z) * Z :=
  match l with
  | [] => ([], [], expire)
  | e :: l' =>
    let '(vs, p, x) := sweep_vals now replic expire (e_vals e) in
    let '(r, q, y) := sweep_entries now replic x l' in
    (Entry (e_key e) vs (e_n e) :: r, map (fun z => (e_key e, fst z, snd z)) p ++ q, y)
  end.

Definition sweep (now : Z) (d : dht) : dht * list (ident * N * Z) :=
  let '(l, p, x) := sweep_entries now (d_replic d) (d_expire d) (d_entries d) in
  (Dht l (d_addr d) x (d_replic d), p).

(* A cell of the answer: an address, or the memory as malloc left it. *)
Inductive cell : Type := Address (a : N) | Junk.

(* dht.c:1904-1942 dht_retrieve; DHT_RETR_ADDR is 1 (dht.c:82).  None: an
   empty answer. *)
Definition dht_retrieve (d : dht) (key : ident) : option cell :=
  match dht_find_entry (d_entries d) key with
  | None => None
  | Some e =>
    if (N.min 1 (e_n e) =? 0)%N then None
    else match e_vals e with
         | [] => Some Junk
         | v :: _ => Some (Address (v_addr v))
         end
  end.

(* dht.c:1237-1252 dht_entry_get_addr: Abort if its assertion fails. *)
Inductive got : Type := Got (a : N) | Abort.

Fixpoint other_addr (self : N) (l : list val) : N :=
  match l with
  | [] => 0
  | v :: l' => if (v_addr v =? self)%N then other_addr self l' else v_addr v
  end.

Definition dht_entry_get_addr (self : N) (e : entry) : got :=
  match e_vals e with
  | [] => Abort
  | l => Got (other_addr self l)
  end.

(* dht.c:2403-2414, the part of dht_query before it asks others: address 0
   means that it goes on to ask others. *)
Definition dht_query_local (d : dht) (key : ident) : got :=
  match dht_find_entry (d_entries d) key with
  | None => Got 0
  | Some e => dht_entry_get_addr (d_addr d) e
  end.

(* dht.c:1760-1809 kad_publish: the lifetime in the store messages to other
   nodes is dht->t_expire as it is now. *)
Definition kad_publish_lifetime (d : dht) : Z := d_expire d.
