(** The commands of the IRMd to an IPCP: src/irmd/ipcp.c:81-545, the message of
    src/lib/pb/ipcp.proto and the way an IPCP executes it,
    src/ipcpd/ipcp.c:349-782.

    A command is made into bytes, the IPCP makes the bytes into calls of its
    operations, and the result is made into bytes and those into what the call
    of the IRMd returns.

    Simplifications: malloc does not fail; one command at a time, so that the
    state does not change between its check and its use (LifeModel has the
    interleavings); what the operations of the kind of IPCP and np1_flow_alloc,
    np1_flow_resp and np1_flow_dealloc return is given; the log lines are left
    out; which socket a pid names is left out. *)
From Coq Require Import NArith ZArith List Bool.
From Verif Require Import WireModel EnrollModel IrmModel.
Import ListNotations.
Local Open Scope N_scope.

(** * The message *)
(* ipcp.proto:43-58; mpl (13) is never set *)
Record ipcp_msg := Im {
  c_code : N; c_hash : option (list N); c_fid : option Z; c_dst : option str; c_qos : option qos;
  c_pk : option (list N); c_conf : option conf_msg; c_pid : option Z; c_layer : option layer_msg;
  c_resp : option Z; c_comp : option str; c_timeo : option N; c_result : option Z
}.
(* an int32 is written with its sign extended to 64 bits *)
Definition im_fields (m : ipcp_msg) : list field :=
  [(1, WVar (c_code m))]
  ++ olen 2 (c_hash m)
  ++ onum 3 (option_map sext (c_fid m))
  ++ olen 4 (c_dst m)
  ++ olen 5 (option_map (fun x => pack (qos_fields x)) (c_qos m))
  ++ olen 6 (c_pk m)
  ++ olen 7 (option_map (fun x => pack (conf_fields x)) (c_conf m))
  ++ onum 8 (option_map sext (c_pid m))
  ++ olen 9 (option_map (fun x => pack (layer_fields x)) (c_layer m))
  ++ onum 10 (option_map sext (c_resp m))
  ++ olen 11 (c_comp m)
  ++ onum 12 (c_timeo m)
  ++ onum 14 (option_map sext (c_result m)).
Definition im_unpack (l : list N) : option ipcp_msg :=
  obind (unpack l) (fun fs =>
  obind (num 1 fs) (fun code =>
  obind (len_field 2 fs) (fun hash =>
  obind (num_field 3 fs) (fun fid =>
  obind (len_field 4 fs) (fun dst =>
  obind (msg_field qos_unpack later 5 fs) (fun q =>
  obind (len_field 6 fs) (fun pk =>
  obind (msg_field conf_unpack conf_merge 7 fs) (fun cf =>
  obind (num_field 8 fs) (fun pid =>
  obind (msg_field layer_unpack later 9 fs) (fun ly =>
  obind (num_field 10 fs) (fun resp =>
  obind (len_field 11 fs) (fun comp =>
  obind (num_field 12 fs) (fun timeo =>
  obind (num_field 13 fs) (fun _ =>
  obind (num_field 14 fs) (fun result =>
  Some (Im code hash (option_map i32 fid) dst q pk cf (option_map i32 pid) ly (option_map i32 resp) comp
           (option_map u32 timeo) (option_map i32 result))))))))))))))))).

(** * The commands of the IRMd *)
Inductive cmd :=
| Bootstrap (c : option conf)
| Enroll (dst : option str)
| Connect (pid : Z) (dst comp : option str) (q : qos)
| Disconnect (pid : Z) (dst comp : option str)
| Reg (hash : list N) | Unreg (hash : list N) | Query (hash : list N)
| Join (f : flowi) (dst : list N)
| Alloc (f : flowi) (dst data : list N)
| AllocResp (f : flowi) (response : Z) (data : list N)
| Dealloc (id : Z) (timeo : Z).

Inductive ask := Msg (m : ipcp_msg) | Fail (err : Z) | AskUB.
Definition m_hashed (code : N) (h : list N) : ipcp_msg := Im code (Some h) None None None None None None None None None None None.

Definition request (c : cmd) : ask :=
  match c with
  (* irmd/ipcp.c:191-195 *)
  | Bootstrap None => Fail EINVAL
  | Bootstrap (Some c) =>
      match conf_s_to_msg c with
      | Ok m => Msg (Im 1 None None None None None (Some m) None None None None None None)
      | _ => AskUB
      end
  (* 235-239 *)
  | Enroll None => Fail EINVAL
  | Enroll d => Msg (Im 2 None None d None None None None None None None None None)
  (* 278-283 *)
  | Connect p d k q => Msg (Im 10 None None d (Some q) None None (Some p) None None k None None)
  (* 309-313 *)
  | Disconnect p d k => Msg (Im 11 None None d None None None (Some p) None None k None None)
  (* 337-340, 364-367, 391-394 *)
  | Reg h => Msg (m_hashed 3 h)
  | Unreg h => Msg (m_hashed 4 h)
  | Query h => Msg (m_hashed 5 h)
  (* 418-426: no qosspec *)
  | Join f d => Msg (Im 7 (Some d) (Some (fid f)) None None None None (Some (n_pid f)) None None None None None)
  (* 452-463 *)
  | Alloc f d k => Msg (Im 6 (Some d) (Some (fid f)) None (Some (fqs f)) (Some k) None (Some (n_pid f)) None None None None None)
  (* 492-501 *)
  | AllocResp f r k => Msg (Im 8 None (Some (fid f)) None None (Some k) None (Some (n_pid f)) None (Some r) None None None)
  (* 526-530: a time_t becomes a uint32_t *)
  | Dealloc i t => Msg (Im 9 None (Some i) None None None None None None None None (Some (w32 t)) None)
  end.

(* irmd/ipcp.c:109-114; None: nothing is sent *)
Definition fits (l : list N) : bool := negb (Nat.eqb (length l) 0) && (N.of_nat (length l) <? SOCK_BUF_SIZE).

(** * The IPCP *)
(* ipcp.h (include/ouroboros) enum ipcp_state *)
Inductive state := SNull | SInit | SOper | SShut.
Definition is_init (s : state) : bool := match s with SInit => true | _ => false end.
Definition is_oper (s : state) : bool := match s with SOper => true | _ => false end.

(** The operations of the kind of IPCP (ipcp.h:37-70) and the functions of
    ipcp-dev.h that give the descriptor of the flow. *)
Inductive opcall :=
| OBootstrap (c : conf) | OEnroll (dst : option str) | OConnect (dst comp : option str) (q : qos)
| ODisconnect (dst comp : option str) | OReg (h : list N) | OUnreg (h : list N) | OQuery (h : list N)
| OAlloc (fd : Z) (dst : list N) (q : qos) (data : list N) | OJoin (fd : Z) (dst : list N) (q : qos)
| OResp (fd : Z) (response : Z) (data : list N) | ODealloc (fd : Z).
Inductive np1call := NAlloc (pid id : Z) | NResp (id : Z) | NDealloc (id : Z) (timeo : Z).
Inductive act := ANp1 (n : np1call) | AOp (o : opcall).

(** An IPCP: which operations it has (by the code of the message), its state,
    the length of its hashes, and what the functions it calls return; ipcp_enroll
    also fills in the name of the layer and the hash algorithm. *)
Record ipcp := Ipcp { has : N -> bool; st : state; hlen : nat; np1 : np1call -> Z; op : opcall -> Z; found : option str -> str * N }.
Record out := Out { acts : list act; reply : ipcp_msg; next : state }.

(* IPCP_MSG__INIT with code IPCP_REPLY and a result, ipcpd/ipcp.c:649-654, 683 *)
Definition answer (r : Z) (y : option layer_msg) : ipcp_msg := Im 12 None None None None None None None y None None None (Some r).
Definition just (p : ipcp) (a : list act) (r : Z) : res out := Ok (Out a (answer r None) (st p)).
Definition EIPCP : Z := -1003. Definition EIPCPSTATE : Z := -1004. Definition EFLOWDOWN : Z := -1005.

(* ipcpd/ipcp.c:349-376 *)
Definition do_bootstrap (p : ipcp) (m : option conf_msg) : res out :=
  if negb (has p 1) then just p [] ENOTSUP
  else if negb (is_init (st p)) then just p [] EIPCPSTATE
  else match m with
       | None => UB
       | Some m =>
           bind (conf_msg_to_s m) (fun c =>
             let r := op p (OBootstrap c) in
             if (r =? 0)%Z then Ok (Out [AOp (OBootstrap c)] (answer r (Some (layer_s_to_msg c))) SOper)
             else just p [AOp (OBootstrap c)] r)
       end.
(* 378-404 *)
Definition do_enroll (p : ipcp) (d : option str) : res out :=
  if negb (has p 2) then just p [] ENOTSUP
  else if negb (is_init (st p)) then just p [] EIPCPSTATE
  else let r := op p (OEnroll d) in
       if (r =? 0)%Z then Ok (Out [AOp (OEnroll d)] (answer r (Some (LayerMsg (fst (found p d)) (snd (found p d))))) SOper)
       else just p [AOp (OEnroll d)] r.
(* 406-476: connect, disconnect, reg, unreg look at no state *)
Definition do_simple (p : ipcp) (code : N) (o : opcall) : res out :=
  if negb (has p code) then just p [] ENOTSUP else just p [AOp o] (op p o).
(* 478-496 *)
Definition do_query (p : ipcp) (h : list N) : res out :=
  if negb (has p 5) then just p [] ENOTSUP
  else if negb (is_oper (st p)) then just p [] EIPCPSTATE
  else just p [AOp (OQuery h)] (op p (OQuery h)).
(* 498-534 *)
Definition do_flow_alloc (p : ipcp) (pid id : Z) (d : list N) (q : qos) (data : list N) : res out :=
  if negb (has p 6) then just p [] ENOTSUP
  else if negb (is_oper (st p)) then just p [] EIPCPSTATE
  else let n := NAlloc pid id in
       let fd := np1 p n in
       if (fd <? 0)%Z then just p [ANp1 n] EFLOWDOWN
       else just p [ANp1 n; AOp (OAlloc fd d q data)] (op p (OAlloc fd d q data)).
(* 537-569 *)
Definition do_flow_join (p : ipcp) (pid id : Z) (d : list N) (q : qos) : res out :=
  if negb (has p 7) then just p [] ENOTSUP
  else if negb (is_oper (st p)) then just p [] EIPCPSTATE
  else let n := NAlloc pid id in
       let fd := np1 p n in
       if (fd <? 0)%Z then just p [ANp1 n] (-1)
       else just p [ANp1 n; AOp (OJoin fd d q)] (op p (OJoin fd d q)).
(* 571-605 *)
Definition do_flow_alloc_resp (p : ipcp) (r id : Z) (data : list N) : res out :=
  if negb (has p 8) then just p [] ENOTSUP
  else if negb (is_oper (st p)) then just p [] EIPCPSTATE
  else if (r =? 0)%Z then
         let n := NResp id in
         let fd := np1 p n in
         if (fd <? 0)%Z then just p [ANp1 n] (-1)
         else just p [ANp1 n; AOp (OResp fd r data)] (op p (OResp fd r data))
       else just p [AOp (OResp (-1) r data)] (op p (OResp (-1) r data)).
(* 607-638 *)
Definition do_flow_dealloc (p : ipcp) (id t : Z) : res out :=
  if negb (has p 9) then just p [] ENOTSUP
  else if negb (is_oper (st p)) then just p [] EIPCPSTATE
  else let n := NDealloc id t in
       let fd := np1 p n in
       if (fd <? 0)%Z then just p [ANp1 n] (-1)
       else just p [ANp1 n; AOp (ODealloc fd)] (op p (ODealloc fd)).

Definition oz (o : option Z) : Z := dflt 0%Z o.
(* the assertions on the length of the hash; the one on pk holds of every
   message of protobuf-c: no bytes, no data *)
Definition hashed (p : ipcp) (m : ipcp_msg) (k : list N -> res out) : res out :=
  let h := dflt [] (c_hash m) in if Nat.eqb (length h) (hlen p) then k h else UB.
(* qos_spec_msg_to_s (protobuf.c:448-465) asserts that there is one *)
Definition qosed (m : ipcp_msg) (k : qos -> res out) : res out :=
  match c_qos m with Some q => k (qos_msg_to_s q) | None => UB end.

(* ipcpd/ipcp.c:685-743; timeo_sec (uint32_t) becomes an int *)
Definition dispatch (p : ipcp) (m : ipcp_msg) : res out :=
  match c_code m with
  | 1 => do_bootstrap p (c_conf m)
  | 2 => do_enroll p (ostr (c_dst m))
  | 10 => qosed m (fun q => do_simple p 10 (OConnect (ostr (c_dst m)) (ostr (c_comp m)) q))
  | 11 => do_simple p 11 (ODisconnect (ostr (c_dst m)) (ostr (c_comp m)))
  | 3 => hashed p m (fun h => do_simple p 3 (OReg h))
  | 4 => hashed p m (fun h => do_simple p 4 (OUnreg h))
  | 5 => hashed p m (fun h => do_query p h)
  | 6 => hashed p m (fun h => qosed m (fun q => do_flow_alloc p (oz (c_pid m)) (oz (c_fid m)) h q (dflt [] (c_pk m))))
  | 7 => hashed p m (fun h => qosed m (fun q => do_flow_join p (oz (c_pid m)) (oz (c_fid m)) h q))
  | 8 => do_flow_alloc_resp p (oz (c_resp m)) (oz (c_fid m)) (dflt [] (c_pk m))
  | 9 => do_flow_dealloc p (oz (c_fid m)) (i32 (dflt 0 (c_timeo m)))
  | _ => just p [] (-1)
  end.
(* 668-676: Err: the socket is closed without an answer *)
Definition serve (p : ipcp) (l : list N) : res out :=
  match im_unpack l with Some m => dispatch p m | None => Err end.

(** * What the call of the IRMd returns *)
(** What becomes of a message that fits (irmd/ipcp.c:94-105, 162-163): the IPCP
    is not there, the write fails, nothing is read (in time), or these bytes
    are read. *)
Inductive trip := Gone | Unwritten | Silence | Read (l : list N).
Inductive ret := Ret (z : Z) | RetInfo (name : str) (hash : N) | RetUB.

(* irmd/ipcp.c:169-180: a failed write leaves the request in the buffer and its
   length in len, and that is unpacked *)
Definition came_back (sent : list N) (t : trip) : option ipcp_msg :=
  match t with
  | Gone | Silence => None
  | Unwritten => im_unpack sent
  | Read l => match receive l with [] => None | b :: r => im_unpack (b :: r) end
  end.
(* 199-224, 242-266, and so on; 533-539 for flow_dealloc; the name of the layer
   is copied into 256 bytes without looking *)
Definition finish (c : cmd) (o : option ipcp_msg) : ret :=
  match o with
  | None => Ret (match c with Dealloc _ _ => 0%Z | _ => EIPCP end)
  | Some m =>
      match c_result m with
      | None => Ret (match c with Dealloc _ _ => 0%Z | _ => EIPCP end)
      | Some r =>
          match c with
          | Bootstrap _ | Enroll _ =>
              if negb (r =? 0)%Z then Ret r
              else match c_layer m with
                   | None => Ret EIPCP
                   | Some y => let n := cstr (ml_name y) in
                               if Nat.leb (length n) 255 then RetInfo n (ml_hash y) else RetUB
                   end
          | _ => Ret r
          end
      end
  end.
Definition call (c : cmd) (t : trip) : ret :=
  match request c with
  | Fail e => Ret e
  | AskUB => RetUB
  | Msg m => let l := pack (im_fields m) in finish c (if fits l then came_back l t else None)
  end.
(** The bytes a command sends, if it sends some. *)
Definition sends (c : cmd) : option (list N) :=
  match request c with
  | Msg m => let l := pack (im_fields m) in if fits l then Some l else None
  | _ => None
  end.
(* ipcpd/ipcp.c:748-772 *)
Definition respond (o : out) : list N := pack (im_fields (reply o)).
