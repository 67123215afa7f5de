(* A message that arrives at a running node of the directory
   (src/ipcpd/unicast/dir/dht.c:2190-2243, 2436-2608, dht_handle_packet). *)
From Coq Require Import NArith ZArith List Bool.
From Verif Require Import DhtModel DhtStoreModel DhtBucketModel.
Import ListNotations.
Open Scope N_scope.

(* dht.proto: a message as dht_msg__unpack gives it.  Fields of byte strings
   have the length that the sender chose.  An optional field that is absent
   is a NULL pointer.  alpha, k, t_refresh, t_replicate only matter for
   KAD_JOIN, which changes nothing in a running node. *)
Record msg : Type := Msg {
  m_code : N; m_cookie : N; m_s_addr : N;
  m_s_id : option (list N); m_key : option (list N);
  m_addrs : list N; m_contacts : list (list N * N);
  m_has_b : bool; m_expire : option Z }.

(* dht.c:91-98 enum kad_code *)
Definition KAD_JOIN : N := 0.
Definition KAD_FIND_NODE : N := 1.
Definition KAD_FIND_VALUE : N := 2.
Definition KAD_STORE : N := 3.
Definition KAD_RESPONSE : N := 4.

(* What of struct dht matters here: dht->b, k, id; the store; the routing
   tree; the outstanding requests (cookie and code: KAD_FIND_NODE or
   KAD_FIND_VALUE, as a running node has no KAD_JOIN outstanding); the
   lookups. *)
Record node : Type := Node_ {
  n_b : nat; n_k : nat; n_id : ident; n_store : dht; n_tree : bucket;
  n_reqs : list (N * N); n_lookups : list lookup }.

Inductive res (A : Type) : Type := Ok (a : A) | Bad.
Arguments Ok {A} a.
Arguments Bad {A}.

(* memcpy or memcmp of dht->b bytes from a field: Bad if it is absent or
   shorter. *)
Definition read_id (b : nat) (f : option (list N)) : res ident :=
  match f with
  | None => Bad
  | Some l => if Nat.ltb (length l) b then Bad else Ok (firstn b l)
  end.

(* The ids of the contacts of a message. *)
Fixpoint read_contacts (b : nat) (cs : list (list N * N)) : res (list (ident * N)) :=
  match cs with
  | [] => Ok []
  | (i, a) :: cs' =>
    match read_id b (Some i), read_contacts b cs' with
    | Ok id, Ok r => Ok ((id, a) :: r)
    | _, _ => Bad
    end
  end.

(* dht.c:2561-2575, KAD_STORE: *msg->contacts is the first message, but
   kad_add reads msg->n_contacts of them in a row from there (1563). *)
Definition handle_store (now : Z) (n : node) (m : msg) : res node :=
  match m_contacts m with
  | [] => Ok n
  | (i, a) :: rest =>
    match m_expire m with
    | None => Ok n
    | Some x =>
      match rest with
      | _ :: _ => Bad
      | [] =>
        match read_id (n_b n) (Some i) with
        | Bad => Bad
        | Ok key => Ok (Node_ (n_b n) (n_k n) (n_id n) (kad_add now (n_store n) key a x)
                              (n_tree n) (n_reqs n) (n_lookups n))
        end
      end
    end
  end.

(* dht.c:2540-2559, KAD_FIND_VALUE and KAD_FIND_NODE: the answer is left out;
   what can go wrong is the search for the entry (dht_retrieve is only called
   for KAD_FIND_VALUE) and the contact list. *)
Definition handle_find (n : node) (m : msg) : res node :=
  match read_id (n_b n) (m_key m) with
  | Bad => Bad
  | Ok key =>
    if (m_code m =? KAD_FIND_VALUE) then
      match dht_retrieve (n_store n) key with
      | Some _ => Ok n
      | None => match dht_contact_list (n_k n) (n_tree n) key with Some _ => Ok n | None => Bad end
      end
    else match dht_contact_list (n_k n) (n_tree n) key with Some _ => Ok n | None => Bad end
  end.

(* dht.c:1029-1044 dht_find_request; 2217-2218, the request is taken off. *)
Fixpoint take_request (l : list (N * N)) (cookie : N) : option (N * list (N * N)) :=
  match l with
  | [] => None
  | (c, code) :: l' =>
    if c =? cookie then Some (code, l')
    else match take_request l' cookie with
         | None => None
         | Some (x, r) => Some (x, (c, code) :: r)
         end
  end.

(* dht.c:1046-1075 dht_find_lookup, and what lookup_update makes of it.  A
   lookup of a query that gets addresses is over: dht_query copies them all
   into an array of KAD_K (2391, 2422, lookup_get_addrs 907). *)
Fixpoint update_lookups (b k : nat) (code : N) (m : msg) (l : list lookup) : res (list lookup) :=
  match l with
  | [] => Ok []
  | lu :: l' =>
    if existsb (N.eqb (m_cookie m)) (l_cookies lu) then
      let '(lu1, go) := lookup_update1 lu (m_cookie m) (m_addrs m) in
      if go then
        match read_contacts b (m_contacts m) with
        | Bad => Bad
        | Ok cs => Ok (lookup_update2 k lu1 cs :: l')
        end
      else if (code =? KAD_FIND_VALUE) && Nat.ltb KAD_K (length (l_addrs lu1)) then Bad
      else Ok (lu1 :: l')
    else match update_lookups b k code m l' with Bad => Bad | Ok r => Ok (lu :: r) end
  end.

(* dht.c:2202-2243 kad_handle_response *)
Definition handle_response (n : node) (m : msg) : res node :=
  match take_request (n_reqs n) (m_cookie m) with
  | None => Ok n
  | Some (code, reqs) =>
    match update_lookups (n_b n) (n_k n) code m (n_lookups n) with
    | Bad => Bad
    | Ok ls => Ok (Node_ (n_b n) (n_k n) (n_id n) (n_store n) (n_tree n) reqs ls)
    end
  end.

(* dht.c:2582-2592, the sender becomes a contact. *)
Definition note_sender (n : node) (m : msg) : res node :=
  match read_id (n_b n) (m_s_id m) with
  | Bad => Bad
  | Ok id =>
    match dht_update_bucket (n_k n) (n_b n) (n_id n) (n_tree n) id (m_s_addr m) with
    | None => Bad
    | Some t => Ok (Node_ (n_b n) (n_k n) (n_id n) (n_store n) t (n_reqs n) (n_lookups n))
    end
  end.

(* dht.c:2486-2505, the lengths that are checked: a message that fails is
   dropped. *)
Definition bad_key (n : node) (m : msg) : bool :=
  match m_key m with Some l => negb (Nat.eqb (length l) (n_b n)) | None => false end.
Definition bad_s_id (n : node) (m : msg) : bool :=
  match m_s_id m with
  | Some l => negb (m_has_b m) && negb (Nat.eqb (length l) (n_b n))
  | None => false
  end.

(* dht.c:2436-2608 dht_handle_packet, the state being DHT_RUNNING. *)
Definition handle_packet (now : Z) (n : node) (m : msg) : res node :=
  if bad_key n m || bad_s_id n m then Ok n
  else
    let r :=
      if m_code m =? KAD_JOIN then Ok n
      else if (m_code m =? KAD_FIND_VALUE) || (m_code m =? KAD_FIND_NODE) then handle_find n m
      else if m_code m =? KAD_STORE then handle_store now n m
      else if m_code m =? KAD_RESPONSE then handle_response n m
      else Bad in
    match r with
    | Bad => Bad
    | Ok n1 => if m_code m =? KAD_JOIN then Ok n1 else note_sender n1 m
    end.
