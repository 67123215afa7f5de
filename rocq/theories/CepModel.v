(** Connection establishment: the two ends of a new flow tell each other
    which component they are and which protocol they speak
    (src/lib/cep.c), and the connection manager of an IPCP decides what to
    do with the flow (src/ipcpd/common/connmgr.c).

    Simplifications: as in WireModel; malloc does not fail; the fields
    fixed_conc_syntax and num_fields of struct conn_info, which cep.c does
    not send, are left out; flows neither lose nor reorder packets (what
    happens then is that a read times out, the error cases below). *)
From Coq Require Import NArith ZArith List Bool.
From Verif Require Import WireModel EnrollModel.
Import ListNotations.
Local Open Scope N_scope.

(* cep.h:30-40 struct conn_info *)
Record info := Info { comp_name : list N; protocol : list N; version : N; syntax : N; addr : N }.

(* cep.h:30 *)
Definition OCEP_BUF_STRLEN : nat := 128.
(* cep.c:35 *)
Definition CEP_BUF_SIZE : nat := 128.

(* cep.proto, message cep_msg; the repeated fields are never written, and
   only looked at for their form. *)
Record cep_msg := CepMsg { cm_comp : list N; cm_proto : list N; cm_version : Z; cm_syntax : Z;
                           cm_addr : N }.

Definition cep_fields (m : cep_msg) : list field :=
  [(1, WLen (cm_comp m)); (2, WLen (cm_proto m)); (3, WVar (sext (cm_version m)));
   (5, WVar (sext (cm_syntax m))); (8, WVar (cm_addr m))].

(** A repeated number may come as one number or as many in one string
    (parse_packed_repeated_member). *)
Fixpoint packed (fuel : nat) (l : list N) : bool :=
  match l with
  | [] => true
  | _ => match fuel with
         | O => false
         | S f => match get_varint 10 l with Some (_, r) => packed f r | None => false end
         end
  end.
Definition rep_ok (t : N) (fs : list field) : bool :=
  forallb (fun f => negb (fst f =? t) ||
                    match snd f with
                    | WVar _ => true
                    | WLen d => packed (length d) d
                    | _ => false
                    end) fs.
(* message fixed_conc_syntax_msg *)
Definition syntax_unpack (l : list N) : option unit :=
  obind (unpack l) (fun fs => if rep_ok 1 fs && rep_ok 2 fs then Some tt else None).

Definition cep_unpack (l : list N) : option cep_msg :=
  obind (unpack l) (fun fs =>
  if negb (rep_ok 4 fs && rep_ok 6 fs) then None else
  obind (msg_field syntax_unpack later 7 fs) (fun _ =>
  obind (req (len_field 1 fs)) (fun c =>
  obind (req (len_field 2 fs)) (fun p =>
  obind (req (num_field 3 fs)) (fun v =>
  obind (req (num_field 5 fs)) (fun s =>
  obind (req (num_field 8 fs)) (fun a =>
  Some (CepMsg c p (i32 v) (i32 s) (u64 a))))))))).

(** A uint32_t stored in an int32_t. *)
Definition to_i32 (n : N) : Z := i32 n.
(** An int32_t stored in a uint32_t or an enumeration. *)
Definition of_i32 (z : Z) : N := Z.to_N (z mod 2 ^ 32).

(* cep.c:67-101 send_msg, cep_snd: the packet written on the flow. *)
Definition cep_snd (i : info) : res (list N) :=
  if (to_i32 (syntax i) <? 0)%Z then Err
  else Ok (pack (cep_fields (CepMsg (comp_name i) (protocol i) (to_i32 (version i))
                                    (to_i32 (syntax i)) (addr i)))).

(* cep.c:37-65 read_msg, cep_rcv: flow_read gives the first 128 bytes of
   the packet.  The length of the component name is checked, that of the
   protocol is not: strcpy writes outside protocol[129] when it is longer
   than 128. *)
Definition cep_rcv (p : list N) : res info :=
  match cep_unpack (firstn CEP_BUF_SIZE p) with
  | None => Err
  | Some m =>
      let c := cstr (cm_comp m) in
      let q := cstr (cm_proto m) in
      if negb (Nat.leb (length c) OCEP_BUF_STRLEN) then Err
      else if negb (Nat.leb (length q) OCEP_BUF_STRLEN) then UB
      else Ok (Info c q (of_i32 (cm_version m)) (of_i32 (cm_syntax m)) (cm_addr m))
  end.

(** A component of the IPCP: its information, or None when it was not
    initialised, in which case its name is the empty string and its lists
    are not set up (connmgr is a global variable, so all zero). *)
Notation comp := (option info).
Definition name_of (c : comp) : list N := match c with Some i => comp_name i | None => [] end.
Definition zero_info : info := Info [] [] 0 0 0.
Definition info_of (c : comp) : info := match c with Some i => i | None => zero_info end.

Definition list_eqb (a b : list N) : bool := if list_eq_dec N.eq_dec a b then true else false.

(* connmgr.c:69-78 get_id_by_name *)
Fixpoint get_id_by_name (name : list N) (cs : list comp) (i : nat) : option nat :=
  match cs with
  | [] => None
  | c :: cs' => if list_eqb name (name_of c) then Some i else get_id_by_name name cs' (S i)
  end.

(** What the accepting side does with a new flow. *)
Inductive accepted :=
| Closed (reply : option (list N))              (* the flow is deallocated *)
| Added (id : nat) (peer : info) (reply : list N).  (* a connection of component id *)

(* connmgr.c:129-184, one turn of flow_acceptor, with add_comp_conn
   (104-127): the connection is put in a list, which must be set up. *)
Definition accept_flow (cs : list comp) (p : list N) : res accepted :=
  match cep_rcv p with
  | UB => UB
  | Err => Ok (Closed None)
  | Ok rcv =>
      match get_id_by_name (comp_name rcv) cs 0 with
      | None =>
          match cep_snd zero_info with
          | Ok a => Ok (Closed (Some a)) | Err => Ok (Closed None) | UB => UB
          end
      | Some id =>
          let c := nth id cs None in
          match cep_snd (info_of c) with
          | UB => UB
          | Err => Ok (Closed None)
          | Ok a => match c with Some _ => Ok (Added id rcv a) | None => UB end
          end
      end
  end.

(* connmgr.c:447-462: what the requesting side sends; its own component. *)
Definition request (own : info) : res (list N) := cep_snd own.

(* connmgr.c:464-484, connmgr_alloc: the answer must be of the same
   protocol, version and syntax.  The result is what is kept of the peer. *)
Definition check_reply (own : info) (p : list N) : res info :=
  bind (cep_rcv p) (fun r =>
  if negb (list_eqb (protocol own) (protocol r)) then Err
  else if negb (version own =? version r) then Err
  else if negb (syntax own =? syntax r) then Err
  else Ok r).

(** The whole exchange: what the requester gets and what the acceptor
    does.  Without an answer the read of the requester fails. *)
Definition exchange (own : info) (cs : list comp) : res (res info * accepted) :=
  bind (request own) (fun p =>
  bind (accept_flow cs p) (fun a =>
  match a with
  | Closed None => Ok (Err, a)
  | Closed (Some r) => Ok (check_reply own r, a)
  | Added _ _ r => Ok (check_reply own r, a)
  end)).
