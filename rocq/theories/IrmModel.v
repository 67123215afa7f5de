(** The calls of the API to the IRMd: src/lib/irm.c, the functions of
    src/lib/dev.c that go to the IRMd, src/lib/serdes-irm.c, the part of
    src/lib/protobuf.c they use, src/lib/sockets.c and the dispatch of
    src/irmd/main.c:1316-1611, with the messages of src/lib/pb/irm.proto and
    model.proto.

    A call is made into bytes, the IRMd makes the bytes into a call of one of
    its own functions, the result of that function is made into bytes and those
    into what the call of the API returns.

    Simplifications: malloc, connect, write and read do not fail, but read
    returns at most SOCK_BUF_SIZE bytes of a message (SOCK_SEQPACKET, the rest is
    lost); a char pointer is None if it is NULL
    (the dst of flow_alloc and flow_join is not, nor is an element of argv);
    proc_exit does not return what [finish] gives; what the IRMd does in its
    functions is not modelled here (RegModel and others); the search of the
    program by irm_bind_program (irm.c:278-363) is in PathModel. *)
From Coq Require Import NArith ZArith List Bool.
From Verif Require Import WireModel EnrollModel.
Import ListNotations.
Local Open Scope N_scope.

Notation str := (list N).

(** * The structures *)
(* qos.h:31-41 struct qos_spec; qosspec_msg of model.proto has the same fields *)
Record qos := Qos { delay : N; bandwidth : N; availability : N; loss : N; ber : N; in_order : N;
                    max_gap : N; cypher_s : N; timeout : N }.
(* qos.h:43-53 *)
Definition qos_raw : qos := Qos 4294967295 0 0 1 1 0 4294967295 0 120000.
(* flow.h:41-52 struct flow_info *)
Record flowi := Fi { fid : Z; n_pid : Z; n_1_pid : Z; mpl : Z; fstate : N; fqs : qos }.
(* ipcp.h:55-60 struct ipcp_info *)
Record ipcpi := Ii { itype : N; iname : str; ipid : Z; istate : N }.
(* struct name_info, name.h:35-38 *)
Record namei := Ni { nname : str; npol : N }.
(* ipcp_list_msg; struct ipcp_list_info, irm.h:33-38, has no hash *)
Record lipcp := Li { lpid : Z; ltype : N; liname : str; llayer : str; lhash : N }.

(** ** The messages *)
Record fi_msg := FiMsg { mf_id : N; mf_npid : N; mf_n1pid : N; mf_mpl : N; mf_state : N; mf_qos : qos }.
Record ii_msg := IiMsg { mi_type : N; mi_name : str; mi_pid : N; mi_state : N }.
Record li_msg := LiMsg { mli_pid : N; mli_type : N; mli_name : str; mli_layer : str; mli_hash : N }.
Record ts_msg := TsMsg { mt_sec : N; mt_nsec : N }.
(* irm.proto:71-97; flow_id, layer, mpl, timeo_sec and timeo_nsec are never set *)
Record irm_msg := Irm {
  m_code : N; m_prog : option str; m_pid : option Z; m_name : option str; m_flow : option fi_msg;
  m_ipcp : option ii_msg; m_exec : list str; m_resp : option Z; m_dst : option str; m_hash : option (list N);
  m_qos : option qos; m_conf : option conf_msg; m_opts : option N; m_ipcps : list li_msg; m_names : list namei;
  m_timeo : option ts_msg; m_comp : option str; m_pk : option (list N); m_key : option (list N); m_result : option Z
}.

(** The number written for a sint32 (zigzag32) and the way back. *)
Definition zz (z : Z) : N := Z.to_N (if (z <? 0)%Z then - 2 * z - 1 else 2 * z).
Definition unzz (n : N) : Z :=
  let v := Z.of_N (u32 n) in if Z.even v then (v / 2)%Z else (- (v / 2) - 1)%Z.
(** An int, pid_t or time_t that is assigned to a uint32_t, a time_t to a uint64_t. *)
Definition w32 (z : Z) : N := Z.to_N (z mod 2 ^ 32).
Definition w64 (z : Z) : N := Z.to_N (z mod 2 ^ 64).

Definition onum (t : N) (o : option N) : list field := opt o (fun n => [(t, WVar n)]).
Definition olen (t : N) (o : option (list N)) : list field := opt o (fun l => [(t, WLen l)]).
Definition rlen (t : N) (l : list (list N)) : list field := map (fun s => (t, WLen s)) l.

Definition qos_fields (q : qos) : list field :=
  [(1, WVar (delay q)); (2, WVar (bandwidth q)); (3, WVar (availability q)); (4, WVar (loss q)); (5, WVar (ber q));
   (6, WVar (in_order q)); (7, WVar (max_gap q)); (8, WVar (cypher_s q)); (9, WVar (timeout q))].
Definition fi_fields (m : fi_msg) : list field :=
  [(1, WVar (mf_id m)); (2, WVar (mf_npid m)); (3, WVar (mf_n1pid m)); (4, WVar (mf_mpl m)); (5, WVar (mf_state m));
   (6, WLen (pack (qos_fields (mf_qos m))))].
Definition ii_fields (m : ii_msg) : list field :=
  [(1, WVar (mi_type m)); (2, WLen (mi_name m)); (3, WVar (mi_pid m)); (4, WVar (mi_state m))].
Definition li_fields (m : li_msg) : list field :=
  [(1, WVar (mli_pid m)); (2, WVar (mli_type m)); (3, WLen (mli_name m)); (4, WLen (mli_layer m)); (5, WVar (mli_hash m))].
Definition ni_fields (m : namei) : list field := [(1, WLen (nname m)); (2, WVar (npol m))].
Definition ts_fields (m : ts_msg) : list field := [(1, WVar (mt_sec m)); (2, WVar (mt_nsec m))].
Definition irm_fields (m : irm_msg) : list field :=
  [(1, WVar (m_code m))]
  ++ olen 2 (m_prog m)
  ++ onum 3 (option_map zz (m_pid m))
  ++ olen 4 (m_name m)
  ++ olen 5 (option_map (fun x => pack (fi_fields x)) (m_flow m))
  ++ olen 6 (option_map (fun x => pack (ii_fields x)) (m_ipcp m))
  ++ rlen 8 (m_exec m)
  ++ onum 9 (option_map zz (m_resp m))
  ++ olen 10 (m_dst m)
  ++ olen 11 (m_hash m)
  ++ olen 13 (option_map (fun x => pack (qos_fields x)) (m_qos m))
  ++ olen 14 (option_map (fun x => pack (conf_fields x)) (m_conf m))
  ++ onum 15 (m_opts m)
  ++ rlen 16 (map (fun x => pack (li_fields x)) (m_ipcps m))
  ++ rlen 17 (map (fun x => pack (ni_fields x)) (m_names m))
  ++ olen 18 (option_map (fun x => pack (ts_fields x)) (m_timeo m))
  ++ olen 21 (m_comp m)
  ++ olen 22 (m_pk m)
  ++ olen 23 (m_key m)
  ++ onum 26 (option_map zz (m_result m)).

(** All occurrences of a repeated field. *)
Fixpoint rep_field (t : N) (fs : list field) : option (list (list N)) :=
  match fs with
  | [] => Some []
  | (t', v) :: fs' =>
      obind (rep_field t fs') (fun r =>
        if t' =? t then match v with WLen d => Some (d :: r) | _ => None end else Some r)
  end.
Fixpoint all_of {A B : Type} (dec : A -> option B) (l : list A) : option (list B) :=
  match l with
  | [] => Some []
  | a :: l => obind (dec a) (fun b => obind (all_of dec l) (fun r => Some (b :: r)))
  end.
Definition num64 (t : N) (fs : list field) : option N := obind (req (num_field t fs)) (fun n => Some (u64 n)).

Definition qos_unpack (l : list N) : option qos :=
  obind (unpack l) (fun fs =>
  obind (num 1 fs) (fun a => obind (num64 2 fs) (fun b => obind (num 3 fs) (fun c =>
  obind (num 4 fs) (fun d => obind (num 5 fs) (fun e => obind (num 6 fs) (fun f =>
  obind (num 7 fs) (fun g => obind (num 8 fs) (fun h => obind (num 9 fs) (fun i =>
  Some (Qos a b c d e f g h i))))))))))).
Definition fi_unpack (l : list N) : option fi_msg :=
  obind (unpack l) (fun fs =>
  obind (num 1 fs) (fun a => obind (num 2 fs) (fun b => obind (num 3 fs) (fun c =>
  obind (num 4 fs) (fun d => obind (num 5 fs) (fun e => obind (req (msg_field qos_unpack later 6 fs)) (fun q =>
  Some (FiMsg a b c d e q)))))))).
Definition ii_unpack (l : list N) : option ii_msg :=
  obind (unpack l) (fun fs =>
  obind (num 1 fs) (fun a => obind (req (len_field 2 fs)) (fun b => obind (num 3 fs) (fun c => obind (num 4 fs) (fun d =>
  Some (IiMsg a b c d)))))).
Definition li_unpack (l : list N) : option li_msg :=
  obind (unpack l) (fun fs =>
  obind (num 1 fs) (fun a => obind (num 2 fs) (fun b => obind (req (len_field 3 fs)) (fun c =>
  obind (req (len_field 4 fs)) (fun d => obind (num 5 fs) (fun e => Some (LiMsg a b c d e))))))).
Definition ni_unpack (l : list N) : option namei :=
  obind (unpack l) (fun fs => obind (req (len_field 1 fs)) (fun a => obind (num 2 fs) (fun b => Some (Ni a b)))).
Definition ts_unpack (l : list N) : option ts_msg :=
  obind (unpack l) (fun fs => obind (num64 1 fs) (fun a => obind (num 2 fs) (fun b => Some (TsMsg a b)))).
Definition irm_unpack (l : list N) : option irm_msg :=
  obind (unpack l) (fun fs =>
  obind (num 1 fs) (fun code =>
  obind (len_field 2 fs) (fun prog =>
  obind (num_field 3 fs) (fun pid =>
  obind (len_field 4 fs) (fun name =>
  obind (msg_field fi_unpack later 5 fs) (fun flow =>
  obind (msg_field ii_unpack later 6 fs) (fun ipcp =>
  obind (len_field 7 fs) (fun _ =>
  obind (rep_field 8 fs) (fun exec =>
  obind (num_field 9 fs) (fun resp =>
  obind (len_field 10 fs) (fun dst =>
  obind (len_field 11 fs) (fun hash =>
  obind (num_field 12 fs) (fun _ =>
  obind (msg_field qos_unpack later 13 fs) (fun q =>
  obind (msg_field conf_unpack conf_merge 14 fs) (fun cf =>
  obind (num_field 15 fs) (fun opts =>
  obind (obind (rep_field 16 fs) (all_of li_unpack)) (fun ipcps =>
  obind (obind (rep_field 17 fs) (all_of ni_unpack)) (fun names =>
  obind (msg_field ts_unpack later 18 fs) (fun ts =>
  obind (num_field 20 fs) (fun _ =>
  obind (len_field 21 fs) (fun comp =>
  obind (len_field 22 fs) (fun pk =>
  obind (len_field 23 fs) (fun key =>
  obind (num_field 24 fs) (fun _ =>
  obind (num_field 25 fs) (fun _ =>
  obind (num_field 26 fs) (fun result =>
  Some (Irm code prog (option_map unzz pid) name flow ipcp exec (option_map unzz resp) dst hash q cf
            (option_map u32 opts) ipcps names ts comp pk key (option_map unzz result)))))))))))))))))))))))))))).

(** ** protobuf.c *)
(* protobuf.c:31-50 timespec_s_to_msg; 52-62 timespec_msg_to_s *)
Definition ts_s_to_msg (t : Z * Z) : ts_msg := TsMsg (w64 (fst t)) (w32 (snd t)).
Definition ts_msg_to_s (m : ts_msg) : Z * Z := (i64 (mt_sec m), Z.of_N (mt_nsec m)).
(* protobuf.c:448-465 qos_spec_msg_to_s: two fields are a uint8_t, one a
   uint16_t; 423-446 qos_spec_s_to_msg copies *)
Definition qos_msg_to_s (q : qos) : qos :=
  Qos (delay q) (bandwidth q) (availability q mod 256) (loss q) (ber q) (in_order q mod 256) (max_gap q)
      (cypher_s q mod 65536) (timeout q).
(* protobuf.c:64-91 flow_info_s_to_msg; 93-107 flow_info_msg_to_s *)
Definition fi_s_to_msg (f : flowi) : fi_msg :=
  FiMsg (w32 (fid f)) (w32 (n_pid f)) (w32 (n_1_pid f)) (w32 (mpl f)) (fstate f) (fqs f).
Definition fi_msg_to_s (m : fi_msg) : flowi :=
  Fi (i32 (mf_id m)) (i32 (mf_npid m)) (i32 (mf_n1pid m)) (Z.of_N (mf_mpl m)) (mf_state m) (qos_msg_to_s (mf_qos m)).
(* protobuf.c:148-173 ipcp_info_s_to_msg; 175-189 ipcp_info_msg_to_s: asserts the length *)
Definition ii_s_to_msg (i : ipcpi) : ii_msg := IiMsg (itype i) (iname i) (w32 (ipid i)) (istate i).
Definition ii_msg_to_s (m : ii_msg) : res ipcpi :=
  let n := cstr (mi_name m) in
  if Nat.leb (length n) 255 then Ok (Ii (mi_type m) n (i32 (mi_pid m)) (mi_state m)) else UB.

(** * The calls *)
Inductive call :=
(* irm.c *)
| CreateIpcp (name : option str) (type : N)
| DestroyIpcp (pid : Z)
| BootstrapIpcp (pid : Z) (c : option conf)
| ConnectIpcp (pid : Z) (dst comp : option str) (q : qos)
| DisconnectIpcp (pid : Z) (dst comp : option str)
| ListIpcps
| EnrollIpcp (pid : Z) (dst : option str)
| BindProgram (prog : str) (name : option str) (opts : N) (argv : list str)  (* prog: with its path *)
| BindProcess (pid : Z) (name : option str)
| UnbindProgram (prog : option str) (name : option str)
| UnbindProcess (pid : Z) (name : option str)
| CreateName (name : option str) (pol : N)
| DestroyName (name : option str)
| ListNames
| RegName (name : option str) (pid : Z)
| UnregName (name : option str) (pid : Z)
(* dev.c; [rest]: what happens to be in a flow_info that is not cleared *)
| FlowAccept (q : option qos) (timeo : option (Z * Z))
| FlowAlloc (dst : str) (q : option qos) (timeo : option (Z * Z))
| FlowJoin (dst : str) (q : option qos) (timeo : option (Z * Z))
| FlowDealloc (id : Z) (timeo : Z * Z) (rest : flowi)
| IpcpFlowDealloc (id n1 : Z) (rest : flowi)
| IpcpCreateR (i : ipcpi)
| IpcpFlowReqArr (hash : list N) (q : qos) (mpl : Z) (data : list N)
| IpcpFlowAllocReply (id : Z) (response : Z) (mpl : Z) (data : list N) (rest : flowi)
| ProcAnnounce (prog : str)
| ProcExit.

(* sockets.h.in:36, include/ouroboros/CMakeLists.txt:4 *)
Definition SOCK_BUF_SIZE : N := 10240.
Definition EINVAL : Z := -22. Definition ENOMEM : Z := -12. Definition EIRMD : Z := -1002. Definition ECRYPT : Z := -1007.
Definition EPERM : Z := -1. Definition EBADF : Z := -9. Definition EPIPE : Z := -32. Definition ETIMEDOUT : Z := -110.
Definition ENOTSUP : Z := -95.

(* IRM_MSG__INIT, irm_msg__init *)
Definition empty (code : N) : irm_msg :=
  Irm code None None None None None [] None None None None None None [] [] None None None None None.
Definition m_args (code : N) (prog : option str) (pid : option Z) (name dst comp : option str) : irm_msg :=
  Irm code prog pid name None None [] None dst None None None None [] [] None comp None None None.
(* serdes-irm.c: flow_info, dst, timeo *)
Definition m_flows (code : N) (f : flowi) (dst : option str) (timeo : option (Z * Z)) : irm_msg :=
  Irm code None None None (Some (fi_s_to_msg f)) None [] None dst None None None None [] []
      (option_map ts_s_to_msg timeo) None None None None.

(** The request: a message, or the error that is returned at once. *)
Inductive ask := Msg (m : irm_msg) | Fail (err : Z) | AskUB.

(* dev.c:772-779, 813-821, 854-864: QOS_DISABLE_CRC is set *)
Definition asked (q : option qos) : qos :=
  match q with
  | None => qos_raw
  | Some q => Qos (delay q) (bandwidth q) (availability q) (loss q) 1 (in_order q) (max_gap q) (cypher_s q) (timeout q)
  end.
Definition flow0 (self : Z) (q : option qos) : flowi := Fi 0 self 0 0 0 (asked q).

Definition request (self : Z) (c : call) : ask :=
  match c with
  (* irm.c:41-77 *)
  | CreateIpcp None _ => Fail EINVAL
  | CreateIpcp (Some n) t =>
      if Nat.ltb 255 (length n) then Fail EINVAL
      else Msg (Irm 1 None None None None (Some (ii_s_to_msg (Ii t n 0 0))) [] None None None None None None [] [] None None None None None)
  (* irm.c:79-105 *)
  | DestroyIpcp p => if (p <? 0)%Z then Fail EINVAL else Msg (m_args 3 None (Some p) None None None)
  (* irm.c:107-136 *)
  | BootstrapIpcp p None => Fail EINVAL
  | BootstrapIpcp p (Some c) =>
      if (p =? -1)%Z then Fail EINVAL
      else match conf_s_to_msg c with
           | Ok m => Msg (Irm 5 None (Some p) None None None [] None None None None (Some m) None [] [] None None None None None)
           | _ => AskUB
           end
  (* irm.c:138-170 *)
  | ConnectIpcp p d k q =>
      Msg (Irm 7 None (Some p) None None None [] None d None (Some q) None None [] [] None k None None None)
  (* irm.c:172-199 *)
  | DisconnectIpcp p d k => Msg (m_args 8 None (Some p) None d k)
  (* irm.c:201-246 *)
  | ListIpcps => Msg (empty 4)
  (* irm.c:248-276 *)
  | EnrollIpcp p None => Fail EINVAL
  | EnrollIpcp p d => if (p =? -1)%Z then Fail EINVAL else Msg (m_args 6 None (Some p) None d None)
  (* irm.c:365-435: an empty string comes last *)
  | BindProgram _ None _ _ => Fail EINVAL
  | BindProgram p n o a =>
      Msg (Irm 9 None None n None None ([p] ++ a ++ [[]]) None None None None None (Some o) [] [] None None None None None)
  (* irm.c:437-465 *)
  | BindProcess _ None => Fail EINVAL
  | BindProcess p n => Msg (m_args 13 None (Some p) n None None)
  (* irm.c:467-494 *)
  | UnbindProgram _ None => Fail EINVAL
  | UnbindProgram p n => Msg (m_args 10 p None n None None)
  (* irm.c:496-524 *)
  | UnbindProcess _ None => Fail EINVAL
  | UnbindProcess p n => Msg (m_args 14 None (Some p) n None None)
  (* irm.c:526-565 *)
  | CreateName None _ => Fail EINVAL
  | CreateName (Some n) b => Msg (Irm 15 None None None None None [] None None None None None None [] [Ni n b] None None None None None)
  (* irm.c:567-592 *)
  | DestroyName None => Fail EINVAL
  | DestroyName n => Msg (m_args 16 None None n None None)
  (* irm.c:594-641 *)
  | ListNames => Msg (empty 17)
  (* irm.c:643-671 *)
  | RegName None _ => Fail EINVAL
  | RegName n p => Msg (m_args 18 None (Some p) n None None)
  (* irm.c:673-701 *)
  | UnregName None _ => Fail EINVAL
  | UnregName n p => Msg (m_args 19 None (Some p) n None None)
  (* dev.c:762-800, serdes-irm.c:34-71 *)
  | FlowAccept q t => Msg (m_flows 21 (flow0 self q) None t)
  (* dev.c:802-842, serdes-irm.c:73-125 *)
  | FlowAlloc d q t => Msg (m_flows 20 (flow0 self q) (Some d) t)
  (* dev.c:844-883: it calls flow_alloc__irm_req_ser, not flow_join__irm_req_ser *)
  | FlowJoin d q t =>
      if match q with Some q => 0 <? cypher_s q | None => false end then Fail ENOTSUP
      else Msg (m_flows 20 (flow0 self q) (Some d) t)
  (* dev.c:886-959, serdes-irm.c:191-228: the memset at 900 clears the size of a
     pointer, that is the first two members *)
  | FlowDealloc i t r => Msg (m_flows 23 (Fi i self (n_1_pid r) (mpl r) (fstate r) (fqs r)) None (Some t))
  (* dev.c:961-1000, serdes-irm.c:230-261: in the same way *)
  | IpcpFlowDealloc i n r => Msg (m_flows 24 (Fi i 0 n (mpl r) (fstate r) (fqs r)) None None)
  (* dev.c:1786-1800, serdes-irm.c:264-295 *)
  | IpcpCreateR i => Msg (Irm 2 None None None None (Some (ii_s_to_msg i)) [] None None None None None None [] [] None None None None None)
  (* dev.c:1802-1837, serdes-irm.c:363-409 *)
  | IpcpFlowReqArr h q l d =>
      Msg (Irm 25 None None None (Some (fi_s_to_msg (Fi 0 0 self l 0 q))) None [] None None (Some h) None None None [] [] None None (Some d) None None)
  (* dev.c:1839-1867, serdes-irm.c:411-455: nothing clears the other members *)
  | IpcpFlowAllocReply i r l d x =>
      Msg (Irm 26 None None None (Some (fi_s_to_msg (Fi i (n_pid x) (n_1_pid x) l (fstate x) (fqs x)))) None [] (Some r) None None None None None [] [] None None (Some d) None None)
  (* dev.c:227-241, serdes-irm.c:297-330 *)
  | ProcAnnounce p => Msg (m_args 11 (Some p) (Some self) None None None)
  (* dev.c:244-253, serdes-irm.c:332-361 *)
  | ProcExit => Msg (m_args 12 None (Some self) None None None)
  end.

(** The calls of dev.c, whose requests are made by serdes-irm.c. *)
Definition by_dev (c : call) : bool :=
  match c with
  | FlowAccept _ _ | FlowAlloc _ _ _ | FlowJoin _ _ _ | FlowDealloc _ _ _ | IpcpFlowDealloc _ _ _ | IpcpCreateR _
  | IpcpFlowReqArr _ _ _ _ | IpcpFlowAllocReply _ _ _ _ _ | ProcAnnounce _ | ProcExit => true
  | _ => false
  end.

(** What happens with the request: it is sent; or the call returns an error,
    with the number of buffers of the caller that were freed; or bytes are
    written outside the buffer on the stack. *)
Inductive sent := Send (l : list N) | Refuse (err : Z) (freed : nat) | Overflow.

(* sockets.c:101-133 send_recv_irm_msg does not look at the size; serdes-irm.c
   does, and frees hash and data with the message if they do not fit
   (serdes-irm.c:390-391 with 406, 437-438 with 452) *)
Definition send (self : Z) (c : call) : sent :=
  match request self c with
  | Msg m =>
      let l := pack (irm_fields m) in
      if N.of_nat (length l) <=? SOCK_BUF_SIZE then Send l
      else if by_dev c then Refuse ENOMEM ((if m_hash m then 1 else 0) + (if m_pk m then 1 else 0))%nat
      else Overflow
  | Fail e => Refuse e 0
  | AskUB => Overflow
  end.

(** * The IRMd *)
(** The functions of irmd/main.c the dispatch calls, with their arguments. *)
Inductive cmd :=
| DoCreateIpcp (i : ipcpi) | DoCreateR (i : ipcpi) | DoDestroyIpcp (pid : Z) | DoBootstrap (pid : Z) (c : conf)
| DoEnroll (pid : Z) (dst : option str) | DoConnect (pid : Z) (dst comp : option str) (q : qos)
| DoDisconnect (pid : Z) (dst comp : option str)
| DoBindProgram (exec : list str) (name : option str) (opts : N) | DoUnbindProgram (prog name : option str)
| DoAnnounce (pid : Z) (prog : str) | DoExit (pid : Z)
| DoBindProcess (pid : Z) (name : option str) | DoUnbindProcess (pid : Z) (name : option str)
| DoListIpcps | DoCreateName (n : namei) | DoDestroyName (name : option str) | DoListNames
| DoRegName (name : option str) (pid : Z) | DoUnregName (name : option str) (pid : Z)
| DoAccept (f : flowi) (data : list N) (timeo : option (Z * Z))
| DoAlloc (f : flowi) (dst : option str) (data : list N) (timeo : option (Z * Z))
| DoJoin (f : flowi) (dst : option str) (timeo : option (Z * Z))
| DoDealloc (f : flowi) (timeo : Z * Z) | DoDeallocResp (f : flowi)
| DoReqArr (f : flowi) (hash : option (list N)) (data : list N)
| DoAllocReply (f : flowi) (response : Z) (data : list N)
| DoNothing.  (* the code is not known *)

Definition dflt {A} (a : A) (o : option A) : A := match o with Some x => x | None => a end.
Definition ostr (o : option str) : option str := option_map cstr o.
Definition with_flow (m : irm_msg) (k : flowi -> res cmd) : res cmd :=
  match m_flow m with Some f => k (fi_msg_to_s f) | None => UB end.

(* irmd/main.c:1356-1495; a timeout stays relative here (1333-1342) *)
Definition dispatch (m : irm_msg) : res cmd :=
  let pid := dflt 0%Z (m_pid m) in
  let data := dflt [] (m_pk m) in
  let timeo := option_map ts_msg_to_s (m_timeo m) in
  match m_code m with
  | 1 => match m_ipcp m with Some i => bind (ii_msg_to_s i) (fun i => Ok (DoCreateIpcp i)) | None => UB end
  | 2 => match m_ipcp m with Some i => bind (ii_msg_to_s i) (fun i => Ok (DoCreateR i)) | None => UB end
  | 3 => Ok (DoDestroyIpcp pid)
  | 5 => match m_conf m with Some c => bind (conf_msg_to_s c) (fun c => Ok (DoBootstrap pid c)) | None => UB end
  | 6 => Ok (DoEnroll pid (ostr (m_dst m)))
  | 7 => match m_qos m with Some q => Ok (DoConnect pid (ostr (m_dst m)) (ostr (m_comp m)) (qos_msg_to_s q)) | None => UB end
  | 8 => Ok (DoDisconnect pid (ostr (m_dst m)) (ostr (m_comp m)))
  (* the last string is replaced by NULL; the options become a uint8_t (430) *)
  | 9 => match m_exec m with
         | [] => UB
         | _ => Ok (DoBindProgram (map cstr (removelast (m_exec m))) (ostr (m_name m)) (dflt 0 (m_opts m) mod 256))
         end
  | 10 => Ok (DoUnbindProgram (ostr (m_prog m)) (ostr (m_name m)))
  (* strcpy into 256 bytes *)
  | 11 => match m_prog m with
          | Some p => if Nat.leb (length (cstr p)) 255 then Ok (DoAnnounce pid (cstr p)) else UB
          | None => UB
          end
  | 12 => Ok (DoExit pid)
  | 13 => Ok (DoBindProcess pid (ostr (m_name m)))
  | 14 => Ok (DoUnbindProcess pid (ostr (m_name m)))
  | 4 => Ok DoListIpcps
  (* strcpy into 256 bytes *)
  | 15 => match m_names m with
          | n :: _ => if Nat.leb (length (cstr (nname n))) 255 then Ok (DoCreateName (Ni (cstr (nname n)) (npol n))) else UB
          | [] => UB
          end
  | 16 => Ok (DoDestroyName (ostr (m_name m)))
  | 17 => Ok DoListNames
  | 18 => Ok (DoRegName (ostr (m_name m)) pid)
  | 19 => Ok (DoUnregName (ostr (m_name m)) pid)
  | 21 => with_flow m (fun f => Ok (DoAccept f data timeo))
  | 20 => with_flow m (fun f => Ok (DoAlloc f (ostr (m_dst m)) data timeo))
  (* main.c:1455: asserts that there is no data *)
  | 22 => match data with [] => with_flow m (fun f => Ok (DoJoin f (ostr (m_dst m)) timeo)) | _ => UB end
  | 23 => with_flow m (fun f => match timeo with Some t => Ok (DoDealloc f t) | None => UB end)
  | 24 => with_flow m (fun f => Ok (DoDeallocResp f))
  | 25 => with_flow m (fun f => Ok (DoReqArr f (m_hash m) data))
  | 26 => with_flow m (fun f => Ok (DoAllocReply f (dflt 0%Z (m_resp m)) data))
  | _ => Ok DoNothing
  end.
(* irmd/main.c:1532-1541: Err: the message is dropped, the socket closed *)
Definition serve (l : list N) : res cmd :=
  match irm_unpack l with Some m => dispatch m | None => Err end.

(** What the function of the IRMd returned: result, and what it left in its
    arguments. *)
Record ans := Ans { a_res : Z; a_flow : flowi; a_key : list N; a_ipcps : list lipcp; a_names : list namei }.

(* irmd/main.c:1339-1341, 1445, 1457, 1500-1501 *)
Definition no_timeo (c : cmd) : bool :=
  match c with DoAlloc _ _ _ None | DoJoin _ _ None => true | _ => false end.
(* irmd/main.c:1352, 1405-1407, 1416-1418, 1425-1505 *)
Definition reply (c : cmd) (a : ans) : irm_msg :=
  let res := match c with DoNothing => (-1)%Z | _ => a_res a end in
  let done := (res =? 0)%Z in
  let flow := match c with DoAccept _ _ _ | DoAlloc _ _ _ _ | DoJoin _ _ _ | DoReqArr _ _ _ => done | _ => false end in
  let key := match c with DoAccept _ _ _ | DoAlloc _ _ _ _ => done && negb (Nat.eqb (length (a_key a)) 0) | _ => false end in
  Irm 27 None None None (if flow then Some (fi_s_to_msg (a_flow a)) else None) None [] None None None None None None
      (match c with DoListIpcps => map (fun i => LiMsg (w32 (lpid i)) (ltype i) (liname i) (llayer i) (lhash i)) (a_ipcps a) | _ => [] end)
      (match c with DoListNames => a_names a | _ => [] end)
      None None None (if key then Some (a_key a) else None)
      (Some (if no_timeo c && (res =? ETIMEDOUT)%Z then EPERM else res)).
(* irmd/main.c:1558-1597: no reply for two results *)
Definition respond (c : cmd) (a : ans) : list N :=
  let m := reply c a in
  let r := dflt 0%Z (m_result m) in
  if (r =? EPIPE)%Z || (r =? EIRMD)%Z then [] else pack (irm_fields m).

(** * What the call returns *)
Inductive ret :=
| Ret (z : Z)
| RetFlow (f : flowi) (key : option (list N))   (* what flow_init is called with *)
| RetIpcps (l : list lipcp) | RetNames (l : list namei)
| RetUB.

(* sockets.c:123, 148: read *)
Definition receive (l : list N) : list N := firstn (N.to_nat SOCK_BUF_SIZE) l.

(* what is returned if the reply has no result *)
Definition no_result (c : call) : Z :=
  match c with
  | CreateIpcp _ _ | BootstrapIpcp _ _ | ConnectIpcp _ _ _ _ | DisconnectIpcp _ _ _ => EIRMD
  | DestroyIpcp _ | EnrollIpcp _ _ | BindProgram _ _ _ _ | BindProcess _ _ | UnbindProgram _ _ | UnbindProcess _ _
  | CreateName _ _ | DestroyName _ | RegName _ _ | UnregName _ _ => -1
  | _ => EIRMD
  end.
(* serdes-irm.c:136-189 flow__irm_result_des; [sk]: a place for the key is given *)
Definition flow_result (sk : bool) (m : irm_msg) : ret :=
  match m_result m with
  | None => Ret EIRMD
  | Some r =>
      if (r <? 0)%Z then Ret r
      else match m_flow m with
           | None => Ret EBADF
           | Some f =>
               let f := fi_msg_to_s f in
               if (0 <? cypher_s (fqs f)) && sk then
                 match m_key m with
                 | Some (b :: k) => RetFlow f (Some (b :: k))
                 | _ => Ret ECRYPT
                 end
               else RetFlow f None
           end
  end.
(* irm.c:236-241, irm.h:36-37: strcpy into 255 bytes each *)
Definition list_ipcp (m : li_msg) : option lipcp :=
  let n := cstr (mli_name m) in
  let y := cstr (mli_layer m) in
  if Nat.ltb (length n) 255 && Nat.ltb (length y) 255 then Some (Li (i32 (mli_pid m)) (mli_type m) n y (mli_hash m)) else None.
(* irm.c:629-636: a name of 255 or more is cut off *)
Definition list_name (n : namei) : namei :=
  let s := cstr (nname n) in
  Ni (if Nat.leb 255 (length s) then firstn 254 s else s) (npol n).

(* irm.c, dev.c: the part of each function after the message came back;
   serdes-irm.c:457-478 irm__irm_result_des *)
Definition finish (self : Z) (c : call) (l : list N) : ret :=
  match irm_unpack l with
  | None => Ret EIRMD
  | Some m =>
      match c with
      | FlowAccept _ _ | FlowAlloc _ _ _ => flow_result true m
      | FlowJoin _ _ _ => flow_result false m
      (* dev.c:1831-1834 *)
      | IpcpFlowReqArr _ _ _ _ =>
          match flow_result false m with
          | RetFlow f k => RetFlow (Fi (fid f) self (n_pid f) 0 (fstate f) (fqs f)) k
          | r => r
          end
      | ListIpcps => match all_of list_ipcp (m_ipcps m) with Some l => RetIpcps l | None => RetUB end
      | ListNames => RetNames (map list_name (m_names m))
      | _ => Ret (dflt (no_result c) (m_result m))
      end
  end.

(** A call from beginning to end, with an IRMd that answers [irmd]. *)
Inductive done := Returned (r : ret) | RefusedWith (err : Z) | Crashed (daemon : bool).
Definition whole (irmd : cmd -> ans) (self : Z) (c : call) : done :=
  match send self c with
  | Refuse e _ => RefusedWith e
  | Overflow => Crashed false
  | Send l =>
      match serve l with
      | Err => match finish self c [] with RetUB => Crashed false | r => Returned r end
      | UB => Crashed true
      | Ok k => match finish self c (receive (respond k (irmd k))) with RetUB => Crashed false | r => Returned r end
      end
  end.
