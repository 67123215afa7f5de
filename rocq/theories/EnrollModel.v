(** Enrollment: an IPCP that joins a layer asks a member of that layer for
    the configuration (src/ipcpd/common/enroll.c), in messages that are
    written and read by src/lib/serdes-oep.c and src/lib/protobuf.c.

    Simplifications: malloc does not fail; an enumeration is its number;
    the bytes of a struct that the code leaves unset are not modelled (the
    union of struct ipcp_config is [NoBody] when no member was set). *)
From Coq Require Import NArith ZArith List Bool.
From Verif Require Import WireModel.
Import ListNotations.
Local Open Scope N_scope.

(** An outcome: a value, an error return, or undefined behaviour (a failed
    assertion, a NULL pointer, an access outside an object). *)
Inductive res (A : Type) : Type := Ok (a : A) | Err | UB.
Arguments Ok {A} a.
Arguments Err {A}.
Arguments UB {A}.
Definition bind {A B : Type} (r : res A) (f : A -> res B) : res B :=
  match r with Ok a => f a | Err => Err | UB => UB end.
Definition obind {A B : Type} (o : option A) (f : A -> option B) : option B :=
  match o with Some a => f a | None => None end.

(** * The structures *)

(* ipcp.h:85-97 struct dt_config, struct uni_config *)
Record uni := Uni { addr_size : N; eid_size : N; max_ttl : N; routing : N;
                    addr_auth : N; cong : N }.
(* ipcp.h:104-108 struct udp_config *)
Record udp := Udp { ip_addr : N; dns_addr : N; port : N }.
(* ipcp.h:99-102 struct eth_config *)
Record eth := Eth { dev : list N; ethertype : N }.
Inductive body := NoBody | BUni (u : uni) | BUdp (u : udp) | BEth (e : eth).
(* ipcp.h:119-134 struct layer_info, struct ipcp_config *)
Record conf := Conf { lname : list N; hash_algo : N; ctype : N; cbody : body }.

(* ipcp.h:45-53 enum ipcp_type *)
Definition IPCP_UNICAST : N := 1.
Definition IPCP_ETH_LLC : N := 3.
Definition IPCP_ETH_DIX : N := 4.
Definition IPCP_UDP : N := 5.

(* ipcp.h:31-33 *)
Definition LAYER_NAME_SIZE : nat := 255.
Definition DEV_NAME_SIZE : nat := 255.
(* serdes-oep.h:33 *)
Definition ENROLL_ID_LEN : nat := 8.
(* enroll.c:49 *)
Definition ENROLL_BUF_LEN : N := 1024.

(* serdes-oep.h:35-51 *)
Record resp := Resp { r_id : list N; t_sec : Z; t_nsec : Z; response : Z; r_conf : option conf }.
Record ack := Ack { a_id : list N; result : Z }.

(** * The messages, ipcp_config.proto, model.proto and enroll.proto *)

Record dt_msg := DtMsg { md_addr : N; md_eid : N; md_ttl : N; md_rt : N }.
Record uni_msg := UniMsg { mu_dt : dt_msg; mu_auth : N; mu_cong : N }.
Record udp_msg := UdpMsg { mp_ip : N; mp_port : N; mp_dns : N }.
Record eth_msg := EthMsg { me_dev : list N; me_type : N }.
Record layer_msg := LayerMsg { ml_name : list N; ml_hash : N }.
Record conf_msg := ConfMsg { mc_layer : layer_msg; mc_type : N; mc_uni : option uni_msg;
                             mc_udp : option udp_msg; mc_eth : option eth_msg }.
Record resp_msg := RespMsg { mr_id : list N; mr_sec : Z; mr_nsec : Z; mr_resp : Z;
                             mr_conf : option conf_msg }.
Record ack_msg := AckMsg { mk_id : list N; mk_res : Z }.

(** ** The generated X__pack *)

Definition opt {A : Type} (o : option A) (f : A -> list field) : list field :=
  match o with Some a => f a | None => [] end.

Definition dt_fields (m : dt_msg) : list field :=
  [(1, WVar (md_addr m)); (2, WVar (md_eid m)); (3, WVar (md_ttl m)); (4, WVar (md_rt m))].
Definition uni_fields (m : uni_msg) : list field :=
  [(1, WLen (pack (dt_fields (mu_dt m)))); (2, WVar (mu_auth m)); (3, WVar (mu_cong m))].
Definition udp_fields (m : udp_msg) : list field :=
  [(1, WVar (mp_ip m)); (2, WVar (mp_port m)); (3, WVar (mp_dns m))].
Definition eth_fields (m : eth_msg) : list field :=
  [(1, WLen (me_dev m)); (2, WVar (me_type m))].
Definition layer_fields (m : layer_msg) : list field :=
  [(1, WLen (ml_name m)); (2, WVar (ml_hash m))].
Definition conf_fields (m : conf_msg) : list field :=
  [(1, WLen (pack (layer_fields (mc_layer m)))); (2, WVar (mc_type m))]
  ++ opt (mc_uni m) (fun u => [(3, WLen (pack (uni_fields u)))])
  ++ opt (mc_udp m) (fun u => [(4, WLen (pack (udp_fields u)))])
  ++ opt (mc_eth m) (fun e => [(5, WLen (pack (eth_fields e)))]).
Definition req_fields (id : list N) : list field := [(1, WLen id)].
Definition resp_fields (m : resp_msg) : list field :=
  [(1, WLen (mr_id m)); (2, WVar (sext (mr_sec m))); (3, WVar (sext (mr_nsec m)));
   (4, WVar (sext (mr_resp m)))]
  ++ opt (mr_conf m) (fun c => [(5, WLen (pack (conf_fields c)))]).
Definition ack_fields (m : ack_msg) : list field :=
  [(1, WLen (mk_id m)); (2, WVar (sext (mk_res m)))].

(** ** The generated X__unpack *)

(** A later message over an earlier one, when all fields are required. *)
Definition later {A : Type} (a b : A) : A := b.
Definition over {A : Type} (a b : option A) : option A :=
  match b with Some _ => b | None => a end.

Definition num (t : N) (fs : list field) : option N := obind (req (num_field t fs)) (fun n => Some (u32 n)).

Definition dt_unpack (l : list N) : option dt_msg :=
  obind (unpack l) (fun fs =>
  obind (num 1 fs) (fun a => obind (num 2 fs) (fun e =>
  obind (num 3 fs) (fun t => obind (num 4 fs) (fun r =>
  Some (DtMsg a e t r)))))).
Definition uni_unpack (l : list N) : option uni_msg :=
  obind (unpack l) (fun fs =>
  obind (req (msg_field dt_unpack later 1 fs)) (fun d =>
  obind (num 2 fs) (fun a => obind (num 3 fs) (fun c => Some (UniMsg d a c))))).
Definition udp_unpack (l : list N) : option udp_msg :=
  obind (unpack l) (fun fs =>
  obind (num 1 fs) (fun i => obind (num 2 fs) (fun p => obind (num 3 fs) (fun d =>
  Some (UdpMsg i p d))))).
Definition eth_unpack (l : list N) : option eth_msg :=
  obind (unpack l) (fun fs =>
  obind (req (len_field 1 fs)) (fun d => obind (num 2 fs) (fun t => Some (EthMsg d t)))).
Definition layer_unpack (l : list N) : option layer_msg :=
  obind (unpack l) (fun fs =>
  obind (req (len_field 1 fs)) (fun d => obind (num 2 fs) (fun t => Some (LayerMsg d t)))).
Definition conf_unpack (l : list N) : option conf_msg :=
  obind (unpack l) (fun fs =>
  obind (req (msg_field layer_unpack later 1 fs)) (fun y =>
  obind (num 2 fs) (fun t =>
  obind (msg_field uni_unpack later 3 fs) (fun u =>
  obind (msg_field udp_unpack later 4 fs) (fun p =>
  obind (msg_field eth_unpack later 5 fs) (fun e =>
  Some (ConfMsg y t u p e))))))).
Definition conf_merge (a b : conf_msg) : conf_msg :=
  ConfMsg (mc_layer b) (mc_type b) (over (mc_uni a) (mc_uni b)) (over (mc_udp a) (mc_udp b))
          (over (mc_eth a) (mc_eth b)).
Definition req_unpack (l : list N) : option (list N) :=
  obind (unpack l) (fun fs => req (len_field 1 fs)).
Definition resp_unpack (l : list N) : option resp_msg :=
  obind (unpack l) (fun fs =>
  obind (req (len_field 1 fs)) (fun i =>
  obind (req (num_field 2 fs)) (fun s =>
  obind (req (num_field 3 fs)) (fun n =>
  obind (req (num_field 4 fs)) (fun r =>
  obind (msg_field conf_unpack conf_merge 5 fs) (fun c =>
  Some (RespMsg i (i64 s) (i32 n) (i32 r) c))))))).
Definition ack_unpack (l : list N) : option ack_msg :=
  obind (unpack l) (fun fs =>
  obind (req (len_field 1 fs)) (fun i => obind (req (num_field 2 fs)) (fun r =>
  Some (AckMsg i (i32 r))))).

(** * From structure to message and back, src/lib/protobuf.c *)

(* protobuf.c:191-209 dt_config_s_to_msg; protobuf.c:225-250 uni_config_s_to_msg *)
Definition uni_s_to_msg (u : uni) : uni_msg :=
  UniMsg (DtMsg (addr_size u) (eid_size u) (max_ttl u) (routing u)) (addr_auth u) (cong u).
(* protobuf.c:211-223, 252-262: the sizes are stored in a uint8_t *)
Definition uni_msg_to_s (m : uni_msg) : uni :=
  Uni (md_addr (mu_dt m) mod 256) (md_eid (mu_dt m) mod 256) (md_ttl (mu_dt m) mod 256)
      (md_rt (mu_dt m)) (mu_auth m) (mu_cong m).
(* protobuf.c:264-281 udp_config_s_to_msg *)
Definition udp_s_to_msg (u : udp) : udp_msg := UdpMsg (ip_addr u) (port u) (dns_addr u).
(* protobuf.c:283-294 udp_config_msg_to_s: the port is stored in a uint16_t *)
Definition udp_msg_to_s (m : udp_msg) : udp := Udp (mp_ip m) (mp_dns m) (mp_port m mod 65536).
(* protobuf.c:296-320 eth_config_s_to_msg *)
Definition eth_s_to_msg (e : eth) : eth_msg := EthMsg (dev e) (ethertype e).
(* protobuf.c:322-333 eth_config_msg_to_s: the assertion on the length of the name *)
Definition eth_msg_to_s (m : eth_msg) : res eth :=
  let d := cstr (me_dev m) in
  if Nat.leb (length d) DEV_NAME_SIZE then Ok (Eth d (me_type m mod 65536)) else UB.
(* protobuf.c:109-133 layer_info_s_to_msg *)
Definition layer_s_to_msg (c : conf) : layer_msg := LayerMsg (lname c) (hash_algo c).

(* protobuf.c:336-387 ipcp_config_s_to_msg: the type decides which member
   of the union is read; reading a member that was not set is undefined. *)
Definition conf_s_to_msg (c : conf) : res conf_msg :=
  let mk := ConfMsg (layer_s_to_msg c) (ctype c) in
  if ctype c =? IPCP_UNICAST then
    match cbody c with BUni u => Ok (mk (Some (uni_s_to_msg u)) None None) | _ => UB end
  else if (ctype c =? IPCP_ETH_LLC) || (ctype c =? IPCP_ETH_DIX) then
    match cbody c with BEth e => Ok (mk None None (Some (eth_s_to_msg e))) | _ => UB end
  else if ctype c =? IPCP_UDP then
    match cbody c with BUdp u => Ok (mk None (Some (udp_s_to_msg u)) None) | _ => UB end
  else Ok (mk None None None).

(* protobuf.c:389-421 ipcp_config_msg_to_s, with layer_info_msg_to_s
   (135-146): the type of the message decides which optional part is
   read; if that part is missing a NULL pointer is followed. *)
Definition conf_msg_to_s (m : conf_msg) : res conf :=
  let n := cstr (ml_name (mc_layer m)) in
  if negb (Nat.leb (length n) LAYER_NAME_SIZE) then UB
  else
    let mk := Conf n (ml_hash (mc_layer m)) (mc_type m) in
    if mc_type m =? IPCP_UNICAST then
      match mc_uni m with Some u => Ok (mk (BUni (uni_msg_to_s u))) | None => UB end
    else if (mc_type m =? IPCP_ETH_LLC) || (mc_type m =? IPCP_ETH_DIX) then
      match mc_eth m with
      | Some e => bind (eth_msg_to_s e) (fun e => Ok (mk (BEth e)))
      | None => UB
      end
    else if mc_type m =? IPCP_UDP then
      match mc_udp m with Some u => Ok (mk (BUdp (udp_msg_to_s u))) | None => UB end
    else Ok (mk NoBody).

(* protobuf.c:506-544 enroll_resp_s_to_msg: no configuration if the
   response is negative. *)
Definition resp_s_to_msg (r : resp) : res resp_msg :=
  let mk := RespMsg (r_id r) (t_sec r) (t_nsec r) (response r) in
  if (response r <? 0)%Z then Ok (mk None)
  else match r_conf r with
       | Some c => bind (conf_s_to_msg c) (fun c => Ok (mk (Some c)))
       | None => UB
       end.

(* memcpy(s.id, msg->id.data, ENROLL_ID_LEN): the source must have that
   many bytes. *)
Definition copy_id (l : list N) : res (list N) :=
  if Nat.leb ENROLL_ID_LEN (length l) then Ok (firstn ENROLL_ID_LEN l) else UB.

(* protobuf.c:546-562 enroll_resp_msg_to_s *)
Definition resp_msg_to_s (m : resp_msg) : res resp :=
  bind (if (0 <=? mr_resp m)%Z
        then match mr_conf m with
             | Some c => bind (conf_msg_to_s c) (fun c => Ok (Some c))
             | None => UB
             end
        else Ok None) (fun c =>
  bind (copy_id (mr_id m)) (fun i =>
  Ok (Resp i (mr_sec m) (mr_nsec m) (mr_resp m) c))).

(* protobuf.c:594-605 enroll_ack_msg_to_s *)
Definition ack_msg_to_s (m : ack_msg) : res ack :=
  bind (copy_id (mk_id m)) (fun i => Ok (Ack i (mk_res m))).

(** * serdes-oep.c *)

(* The message must fit the buffer (lines 39, 89, 131). *)
Definition fit (blen : N) (l : list N) : res (list N) :=
  if blen <? N.of_nat (length l) then Err else Ok l.

(* serdes-oep.c:28-52 enroll_req_ser, with enroll_req_s_to_msg
   (protobuf.c:467-493) *)
Definition req_ser (id : list N) (blen : N) : res (list N) := fit blen (pack (req_fields id)).
(* serdes-oep.c:54-76 enroll_req_des: the length of the identifier is
   checked before it is copied. *)
Definition req_des (l : list N) : res (list N) :=
  match req_unpack l with
  | None => Err
  | Some i => if Nat.eqb (length i) ENROLL_ID_LEN then copy_id i else Err
  end.
(* serdes-oep.c:78-102 enroll_resp_ser *)
Definition resp_ser (r : resp) (blen : N) : res (list N) :=
  bind (resp_s_to_msg r) (fun m => fit blen (pack (resp_fields m))).
(* serdes-oep.c:104-118 enroll_resp_des *)
Definition resp_des (l : list N) : res resp :=
  match resp_unpack l with None => Err | Some m => resp_msg_to_s m end.
(* serdes-oep.c:120-145 enroll_ack_ser, with enroll_ack_s_to_msg
   (protobuf.c:564-592) *)
Definition ack_ser (a : ack) (blen : N) : res (list N) :=
  fit blen (pack (ack_fields (AckMsg (a_id a) (result a)))).
(* serdes-oep.c:147-161 enroll_ack_des *)
Definition ack_des (l : list N) : res ack :=
  match ack_unpack l with None => Err | Some m => ack_msg_to_s m end.

(** * enroll.c *)

(** flow_read gives at most as many bytes as the buffer has. *)
Definition read_buf (p : list N) : list N := firstn (N.to_nat ENROLL_BUF_LEN) p.

(* enroll.c:94-129: the member reads a request and answers with its
   configuration, the time and a response of 0 (line 80); the identifier is
   the one of the request. *)
Definition handle_req (own : conf) (now : Z * Z) (p : list N) : res (list N) :=
  bind (req_des (read_buf p)) (fun i =>
  resp_ser (Resp i (fst now) (snd now) 0 (Some own)) ENROLL_BUF_LEN).

(* enroll.c:131-157: the member reads the acknowledgement, of which the
   identifier is only logged when it differs; the number returned is what it reports, -100 if there was none. *)
Definition handle_ack (p : option (list N)) : res Z :=
  match p with
  | None => Ok (-100)%Z
  | Some p =>
      match ack_des (read_buf p) with
      | Ok a => Ok (result a)
      | Err => Ok (-100)%Z
      | UB => UB
      end
  end.

(* enroll.c:187-201: the request of the joining IPCP. *)
Definition boot_req (id : list N) : res (list N) := req_ser id ENROLL_BUF_LEN.

(* enroll.c:203-248: what the joining IPCP of type [ty] does with the
   answer: the configuration it stores, or an error.  The comparison of
   the clocks only logs. *)
Definition boot_resp (ty : N) (id : list N) (p : list N) : res conf :=
  bind (resp_des (read_buf p)) (fun r =>
  if negb (if list_eq_dec N.eq_dec (r_id r) id then true else false) then Err
  else if (response r <? 0)%Z then Err
  else match r_conf r with
       | None => UB
       | Some c => if ctype c =? ty then Ok c else Err
       end).

(* enroll.c:251-279 enroll_ack *)
Definition send_ack (id : list N) (code : Z) : res (list N) :=
  ack_ser (Ack id code) ENROLL_BUF_LEN.
