(** What C99 says about the calls to the IRMd. *)
From Coq Require Import NArith ZArith List Bool.
From Verif Require Import WireModel EnrollModel EnrollSpec IrmModel.
Import ListNotations.
Local Open Scope N_scope.

(** * Arguments a C program can pass *)
Definition int32 (z : Z) : Prop := (- 2 ^ 31 <= z < 2 ^ 31)%Z.
Definition txt (l : str) : Prop := Forall (fun b => 0 < b < 256) l.
Definition otxt (o : option str) : Prop := match o with Some l => txt l | None => True end.
Definition good_qos (q : qos) : Prop :=
  delay q < 2 ^ 32 /\ bandwidth q < 2 ^ 64 /\ availability q < 2 ^ 8 /\ loss q < 2 ^ 32 /\ ber q < 2 ^ 32 /\
  in_order q < 2 ^ 8 /\ max_gap q < 2 ^ 32 /\ cypher_s q < 2 ^ 16 /\ timeout q < 2 ^ 32.
Definition good_oqos (o : option qos) : Prop := match o with Some q => good_qos q | None => True end.
Definition good_timeo (t : Z * Z) : Prop := (- 2 ^ 63 <= fst t < 2 ^ 63)%Z /\ (0 <= snd t < 1000000000)%Z.
Definition good_otimeo (o : option (Z * Z)) : Prop := match o with Some t => good_timeo t | None => True end.
Definition good_mpl (z : Z) : Prop := (0 <= z < 2 ^ 32)%Z.
Definition good_rest (r : flowi) : Prop := fstate r < 2 ^ 32 /\ good_qos (fqs r).
Definition good_flow (f : flowi) : Prop :=
  int32 (fid f) /\ int32 (n_pid f) /\ int32 (n_1_pid f) /\ good_mpl (mpl f) /\ good_rest f.

Definition good_call (c : call) : Prop :=
  match c with
  | CreateIpcp n t => otxt n /\ t < 2 ^ 32
  | DestroyIpcp p => int32 p
  | BootstrapIpcp p c => int32 p /\ match c with Some c => good_conf c | None => True end
  | ConnectIpcp p d k q => int32 p /\ otxt d /\ otxt k /\ good_qos q
  | DisconnectIpcp p d k => int32 p /\ otxt d /\ otxt k
  | ListIpcps | ListNames | ProcExit => True
  | EnrollIpcp p d => int32 p /\ otxt d
  | BindProgram p n o a => txt p /\ otxt n /\ o < 2 ^ 16 /\ Forall txt a
  | BindProcess p n | UnbindProcess p n | RegName n p | UnregName n p => int32 p /\ otxt n
  | UnbindProgram p n => otxt p /\ otxt n
  | CreateName n b => otxt n /\ b < 2 ^ 32
  | DestroyName n => otxt n
  | FlowAccept q t => good_oqos q /\ good_otimeo t
  | FlowAlloc d q t | FlowJoin d q t => txt d /\ good_oqos q /\ good_otimeo t
  | FlowDealloc i t r => int32 i /\ good_timeo t /\ good_rest r
  | IpcpFlowDealloc i n r => int32 i /\ int32 n /\ good_rest r
  | IpcpCreateR i => itype i < 2 ^ 32 /\ txt (iname i) /\ (length (iname i) <= 255)%nat /\ int32 (ipid i) /\ istate i < 2 ^ 32
  | IpcpFlowReqArr h q l d => good_qos q /\ good_mpl l
  | IpcpFlowAllocReply i r l d x => int32 i /\ int32 r /\ good_mpl l /\ good_rest x
  | ProcAnnounce p => txt p
  end.

(** * What the IRMd has to do for a call *)
(** The QoS that is asked for: without one a raw flow; the bit error rate is
    not used (QOS_DISABLE_CRC). *)
Definition wants (q : option qos) (q' : qos) : Prop :=
  match q with
  | None => q' = Qos (2 ^ 32 - 1) 0 0 1 1 0 (2 ^ 32 - 1) 0 120000
  | Some q => q' = Qos (delay q) (bandwidth q) (availability q) (loss q) 1 (in_order q) (max_gap q) (cypher_s q) (timeout q)
  end.

Definition means (self : Z) (c : call) (k : cmd) : Prop :=
  match c, k with
  | CreateIpcp (Some n) t, DoCreateIpcp i => itype i = t /\ iname i = n
  | DestroyIpcp p, DoDestroyIpcp p' => p' = p
  | BootstrapIpcp p (Some c), DoBootstrap p' c' => p' = p /\ c' = c
  | ConnectIpcp p d s q, DoConnect p' d' s' q' => p' = p /\ d' = d /\ s' = s /\ q' = q
  | DisconnectIpcp p d s, DoDisconnect p' d' s' => p' = p /\ d' = d /\ s' = s
  | ListIpcps, DoListIpcps => True
  | EnrollIpcp p d, DoEnroll p' d' => p' = p /\ d' = d
  | BindProgram p n o a, DoBindProgram e n' o' => e = p :: a /\ n' = n /\ o' = o
  | BindProcess p n, DoBindProcess p' n' => p' = p /\ n' = n
  | UnbindProgram p n, DoUnbindProgram p' n' => p' = p /\ n' = n
  | UnbindProcess p n, DoUnbindProcess p' n' => p' = p /\ n' = n
  | CreateName n b, DoCreateName i => n = Some (nname i) /\ npol i = b
  | DestroyName n, DoDestroyName n' => n' = n
  | ListNames, DoListNames => True
  | RegName n p, DoRegName n' p' => n' = n /\ p' = p
  | UnregName n p, DoUnregName n' p' => n' = n /\ p' = p
  | FlowAccept q t, DoAccept f d t' => n_pid f = self /\ wants q (fqs f) /\ t' = t
  | FlowAlloc dst q t, DoAlloc f dst' d t' => n_pid f = self /\ wants q (fqs f) /\ dst' = Some dst /\ t' = t
  | FlowJoin dst q t, DoJoin f dst' t' => n_pid f = self /\ wants q (fqs f) /\ dst' = Some dst /\ t' = t
  | FlowDealloc i t _, DoDealloc f t' => fid f = i /\ n_pid f = self /\ t' = t
  | IpcpFlowDealloc i n _, DoDeallocResp f => fid f = i /\ n_1_pid f = n
  | IpcpCreateR i, DoCreateR i' => i' = i
  | IpcpFlowReqArr h q l d, DoReqArr f h' d' => n_1_pid f = self /\ fqs f = q /\ mpl f = l /\ h' = Some h /\ d' = d
  | IpcpFlowAllocReply i r l d _, DoAllocReply f r' d' => fid f = i /\ mpl f = l /\ r' = r /\ d' = d
  | ProcAnnounce p, DoAnnounce pid p' => pid = self /\ p' = p
  | ProcExit, DoExit pid => pid = self
  | _, _ => False
  end.

(** The calls that are refused because of their arguments. *)
Definition refused (c : call) : Prop :=
  match c with
  | CreateIpcp None _ | BootstrapIpcp _ None | EnrollIpcp _ None | BindProgram _ None _ _ | BindProcess _ None
  | UnbindProgram _ None | UnbindProcess _ None | CreateName None _ | DestroyName None | RegName None _ | UnregName None _ => True
  | CreateIpcp (Some n) _ => (255 < length n)%nat
  | DestroyIpcp p => (p < 0)%Z
  | BootstrapIpcp p _ | EnrollIpcp p _ => p = (-1)%Z
  | FlowJoin _ (Some q) _ => 0 < cypher_s q
  | _ => False
  end.

(** What the IRMd copies into an array of 256 bytes without looking. *)
Definition copied (c : call) : str :=
  match c with CreateName (Some n) _ => n | ProcAnnounce p => p | _ => [] end.
Definition options (c : call) : N := match c with BindProgram _ _ o _ => o | _ => 0 end.
Definition is_join (c : call) : Prop := match c with FlowJoin _ _ _ => True | _ => False end.

(** The bytes of the strings and buffers among the arguments, each with 32 to
    spare for what is written around it. *)
Definition osize (o : option (list N)) : nat := match o with Some l => 32 + length l | None => 0 end.
Definition args_size (c : call) : nat :=
  match c with
  | ConnectIpcp _ a b _ | DisconnectIpcp _ a b | UnbindProgram a b => osize a + osize b
  | EnrollIpcp _ a | CreateName a _ | DestroyName a | BindProcess _ a | UnbindProcess _ a | RegName a _ | UnregName a _ => osize a
  | BindProgram p n _ a => osize (Some p) + osize n + fold_right (fun s k => osize (Some s) + k) 0 a
  | FlowAlloc d _ _ | FlowJoin d _ _ => osize (Some d)
  | IpcpFlowReqArr h _ _ d => osize (Some h) + osize (Some d)
  | IpcpFlowAllocReply _ _ _ d _ => osize (Some d)
  | ProcAnnounce p => osize (Some p)
  | _ => 0
  end%nat.

(** * What the caller has to hear *)
(** A result of the IRMd as the caller sees it: two results close the socket,
    and without a timeout nothing can have timed out. *)
Definition told (timed : bool) (r : Z) : Z :=
  if (r =? -32)%Z || (r =? -1002)%Z then -1002
  else if negb timed && (r =? -110)%Z then -1 else r.
Definition timed (c : call) : bool :=
  match c with FlowAlloc _ _ None | FlowJoin _ _ None => false | _ => true end.
(** The calls that give a number, not a flow or a list. *)
Definition gives_number (c : call) : Prop :=
  match c with FlowAccept _ _ | FlowAlloc _ _ _ | FlowJoin _ _ _ | IpcpFlowReqArr _ _ _ _ | ListIpcps | ListNames => False | _ => True end.
Definition gives_flow (c : call) : Prop :=
  match c with FlowAccept _ _ | FlowAlloc _ _ _ => True | _ => False end.

Definition good_name (n : namei) : Prop := txt (nname n) /\ npol n < 2 ^ 32.
Definition good_ipcp (i : lipcp) : Prop :=
  int32 (lpid i) /\ ltype i < 2 ^ 32 /\ txt (liname i) /\ txt (llayer i) /\ lhash i < 2 ^ 32.
Definition good_ans (a : ans) : Prop :=
  int32 (a_res a) /\ good_flow (a_flow a) /\ Forall good_ipcp (a_ipcps a) /\ Forall good_name (a_names a).

(** * The messages that end the IRMd *)
Definition long (s : str) : Prop := (255 < length (cstr s))%nat.
Definition breaks (m : irm_msg) : Prop :=
  match m_code m with
  | 1 | 2 => match m_ipcp m with None => True | Some i => long (mi_name i) end
  | 5 => match m_conf m with None => True | Some c => long_name c \/ part_missing c end
  | 7 => m_qos m = None
  | 9 => m_exec m = []
  | 11 => match m_prog m with None => True | Some p => long p end
  | 15 => match m_names m with [] => True | n :: _ => long (nname n) end
  | 20 | 21 | 24 | 25 | 26 => m_flow m = None
  | 22 => m_flow m = None \/ match m_pk m with Some (_ :: _) => True | _ => False end
  | 23 => m_flow m = None \/ m_timeo m = None
  | _ => False
  end.

(** The strings and buffers among the arguments. *)
Definition olist {A} (o : option A) : list A := match o with Some a => [a] | None => [] end.
Definition args_of (c : call) : list (list N) :=
  match c with
  | ConnectIpcp _ a b _ | DisconnectIpcp _ a b | UnbindProgram a b => olist a ++ olist b
  | EnrollIpcp _ a | CreateName a _ | DestroyName a | BindProcess _ a | UnbindProcess _ a | RegName a _ | UnregName a _ => olist a
  | BindProgram p n _ a => p :: olist n ++ a
  | FlowAlloc d _ _ | FlowJoin d _ _ => [d]
  | IpcpFlowReqArr h _ _ d => [h; d]
  | IpcpFlowAllocReply _ _ _ d _ => [d]
  | ProcAnnounce p => [p]
  | _ => []
  end.
(** The functions of dev.h and ipcp-dev.h, as opposed to those of irm.h. *)
Definition of_dev (c : call) : Prop :=
  match c with
  | FlowAccept _ _ | FlowAlloc _ _ _ | FlowJoin _ _ _ | FlowDealloc _ _ _ | IpcpFlowDealloc _ _ _ | IpcpCreateR _
  | IpcpFlowReqArr _ _ _ _ | IpcpFlowAllocReply _ _ _ _ _ | ProcAnnounce _ | ProcExit => True
  | _ => False
  end.

(** The bytes of a list in an answer, each entry with room to spare. *)
Definition names_size (l : list namei) : nat := fold_right (fun n k => 80 + length (nname n) + k)%nat 0%nat l.
Definition ipcps_size (l : list lipcp) : nat := fold_right (fun i k => 120 + length (liname i) + length (llayer i) + k)%nat 0%nat l.
(** A result the IRMd does not keep to itself. *)
Definition spoken (r : Z) : Prop := r <> (-32)%Z /\ r <> (-1002)%Z.
