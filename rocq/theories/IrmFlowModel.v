(** What the IRMd does to make a flow: flow_accept, flow_join, get_ipcp_by_dst, flow_alloc,
    wait_for_accept, flow_req_arr and flow_alloc_reply, src/irmd/main.c:763-1230.

    A function is a tree: it forks at every call with more than one outcome.  Running it
    gives what it acquired, released and told the IPCP, and what it returned.

    Simplifications: what keys and buffers contain is left out; the registry is the
    outcomes of its calls (its own model is RegModel), and no other thread destroys the
    flow; logging is left out; a thread is not cancelled while it waits. *)
From Coq Require Import List Arith Bool.
Import ListNotations.

(** The things: the block for the symmetric key, the key pair, the flow in the registry,
    the hash of the name, the public key (or other data) from the other side, and the
    command to start. *)
Inductive res := Sym | Pkp | Flow | Hash | Rpk | Exec.
(** A thing is acquired, released or passed on; the IPCP is asked for a flow, or is sent an
    answer (good or bad, with or without a public key); a program is started. *)
Inductive ev := Got (r : res) | Gone (r : res) | Pass (r : res) | AskIpcp (pk : bool) | Resp (good pk : bool) | Spawn.
Inductive err := EINVAL | ENOMEM | ECRYPT | EBADF | EIPCP | ETIMEDOUT | EPIPE | ENOTALLOC | EOTHER.
(** What is returned: an error or success, and whether *data holds the key. *)
Record result := Res { code : option err; key : bool }.
Definition bad (e : err) : result := Res (Some e) false.

Inductive prog := Ret (r : result) | Ask (n : nat) (k : nat -> prog) | Do (e : ev) (p : prog) | Abort.
(** A call that fails or not. *)
Definition If (no yes : prog) : prog := Ask 2 (fun i => if i =? 0 then no else yes).
Fixpoint dos (es : list ev) (p : prog) : prog := match es with [] => p | e :: t => Do e (dos t p) end.

(** The outcomes of the calls, in order; None: an assert fails. *)
Fixpoint run (p : prog) (ans : list nat) : list ev * option result :=
  match p with
  | Ret r => ([], Some r)
  | Abort => ([], None)
  | Do e p => let '(es, r) := run p ans in (e :: es, r)
  | Ask n k =>
      match ans with
      | [] => run (k (n - 1)) []
      | a :: t => run (k (if a <? n then a else n - 1)) t
      end
  end.

(** flow_accept, main.c:763-877.  [crypto] and, after the wait, which outcome: 0 a timeout,
    1 terminated, 2 a request. *)
Definition accept_end (crypto : bool) : prog :=
  (* 852-861, 867-876 *)
  Do (Resp true crypto)
    (If (dos ([Gone Flow; Gone Pkp] ++ if crypto then [] else [Gone Sym]) (Ret (Res (Some EIPCP) crypto)))
        (dos ([Gone Pkp] ++ if crypto then [] else [Gone Sym]) (Ret (Res None crypto)))).
Definition flow_accept (crypto : bool) : prog :=
  (* 778-782 *)
  If (Ret (bad EINVAL)) (
  (* 784-789 *)
  If (Ret (bad ENOMEM)) (Do (Got Sym) (
  (* 791-796 *)
  If (dos [Gone Sym] (Ret (bad ECRYPT))) (Do (Got Pkp) (
  (* 803-807 *)
  If (dos [Gone Pkp; Gone Sym] (Ret (bad EBADF))) (Do (Got Flow) (
  (* 809-813 *)
  If (dos [Gone Flow; Gone Pkp; Gone Sym] (Ret (bad EBADF))) (
  (* 819-836 *)
  Ask 3 (fun w => match w with
    | 0 => dos [Gone Flow; Gone Pkp; Gone Sym] (Ret (bad ETIMEDOUT))
    | 1 => dos [Gone Flow; Gone Pkp; Gone Sym] (Ret (bad EPIPE))
    | _ =>
        if crypto then
          (* 838-847, 863-866 *)
          Do (Got Rpk) (
          If (dos [Gone Rpk; Resp false false; Gone Flow; Gone Pkp; Gone Sym] (Ret (bad ECRYPT)))
             (Do (Gone Rpk) (accept_end true)))
        else accept_end false
    end))))))))).

(** flow_join, main.c:879-951; [n1] is the n_1_pid in the request.  reg_flow_create asserts
    that it is 0 (reg/flow.c:43), reg_flow_update that it is not (reg/flow.c:141). *)
Definition flow_join (n1 : nat) : prog :=
  (* 891-895 *)
  if negb (n1 =? 0) then Abort else
  If (Ret (bad EBADF)) (Do (Got Flow) (
  (* 897-902 *)
  If (dos [Gone Flow] (Ret (bad EIPCP))) (
  (* 904-910 *)
  If (dos [Gone Flow] (Ret (bad ENOMEM))) (Do (Got Hash) (
  (* 912 *)
  if n1 =? 0 then Abort else
  (* 914-918 *)
  Do (AskIpcp false) (
  If (dos [Gone Hash; Gone Flow] (Ret (bad ENOTALLOC))) (
  (* 923-943 *)
  Ask 3 (fun w => match w with
    | 0 => dos [Gone Hash; Gone Flow] (Ret (bad ETIMEDOUT))
    | 1 => dos [Gone Hash; Gone Flow] (Ret (bad EPIPE))
    | _ => dos [Gone Hash] (Ret (Res None false))
    end)))))))).

(** get_ipcp_by_dst, main.c:953-1008: the IPCPs in the order of the registry, with the
    outcomes of malloc and of the query.  The error, the process, how many hashes are
    allocated, and who was asked. *)
Record ipcp := Ipcp { broadcast : bool; enrolled : bool; ipid : nat; mem_ok : bool; knows : bool }.
Record found := Found { f_err : option err; f_pid : nat; f_hashes : nat; f_asked : list nat }.
Definition get_step (f : found) (x : ipcp) : found :=
  if broadcast x then f
  else if match f_err f with None => true | _ => negb (enrolled x) end then f
  else if negb (mem_ok x) then Found (Some ENOMEM) (f_pid f) (f_hashes f) (f_asked f)
  else if negb (knows x) then Found (f_err f) (f_pid f) (f_hashes f) (f_asked f ++ [ipid x])
  else Found None (ipid x) (S (f_hashes f)) (f_asked f ++ [ipid x]).
Definition get_ipcp_by_dst (l : list ipcp) : found := fold_left get_step l (Found (Some EIPCP) 0 0 []).

(** flow_alloc, main.c:1010-1128; [crypto]: cypher_s is not 0; [more]: the other side sent
    data with its answer. *)
Definition keys (crypto : bool) : list ev := if crypto then [Gone Pkp; Gone Sym] else [].
Definition alloc_rest (crypto more : bool) : prog :=
  (* 1051-1055, 1121-1127 *)
  If (dos (keys crypto) (Ret (bad EBADF))) (Do (Got Flow) (
  (* 1057-1061 *)
  If (dos (Gone Flow :: keys crypto) (Ret (bad EIPCP))) (Do (Got Hash) (
  (* 1063: whether the buffers are made is not looked at *)
  Ask 2 (fun bufs =>
  (* 1065-1069 *)
  Do (AskIpcp crypto) (
  If (dos (Gone Hash :: Gone Flow :: keys crypto) (Ret (bad ENOTALLOC))) (
  (* 1076; reg.c:1696-1697: the flow is not pending *)
  if bufs =? 0 then Abort else
  Ask 3 (fun w => match w with
    | 0 => dos (Gone Hash :: Gone Flow :: keys crypto) (Ret (bad ETIMEDOUT))
    | 1 => dos (Gone Hash :: Gone Flow :: keys crypto) (Ret (bad EPIPE))
    | _ =>
        dos (if crypto || more then [Got Rpk] else []) (
        if crypto then
          (* 1096-1107, 1114-1127 *)
          If (dos [Gone Rpk; Gone Hash; Gone Flow; Gone Pkp; Gone Sym] (Ret (bad ECRYPT)))
             (dos [Gone Pkp; Gone Rpk; Gone Hash] (Ret (Res None true)))
        else dos [Gone Hash] (Ret (Res None false)))
    end)))))))).
Definition flow_alloc (crypto more : bool) : prog :=
  if crypto then
    (* 1028-1049 *)
    If (Ret (bad ENOMEM)) (Do (Got Sym) (
    If (dos [Gone Sym] (Ret (bad ECRYPT))) (Do (Got Pkp) (alloc_rest crypto more))))
  else alloc_rest crypto more.

(** wait_for_accept, main.c:1130-1172, continued by [k] with whether an accepting process is
    there.  Outcomes of the wait: 0 a timeout, 1 another error, 2 a flow. *)
Definition wait_for_accept (k : bool -> prog) : prog :=
  Ask 3 (fun w => match w with
    | 0 =>
        (* 1143-1147 *)
        If (k false) (Do (Got Exec) (
        (* 1151-1155 *)
        Do Spawn (
        If (Do (Gone Exec) (k false)) (
        (* 1159-1163 *)
        Ask 3 (fun w => match w with
          | 0 => Do (Gone Exec) (k false)
          | 1 => Do (Gone Exec) (k false)
          | _ => Do (Gone Exec) (k true)
          end)))))
    | 1 => k false
    | _ => k true
    end).
(** flow_req_arr, main.c:1174-1215, called with the data of the message, 1471-1481: it holds
    Rpk when it is called.  reg_respond_accept, reg/reg.c:1924-1955: the data goes to the
    flow if there is a key. *)
Definition flow_req_arr (crypto : bool) : prog :=
  If (Ret (bad EIPCP)) (
  wait_for_accept (fun ok => if negb ok then Ret (bad EOTHER) else
    (* reg.c:1926-1930 *)
    If (Ret (bad EOTHER)) (
    (* reg.c:1936-1945 *)
    dos (if crypto then [Pass Rpk] else []) (
    If (Ret (bad EOTHER)) (Ret (Res None false)))))).
(** flow_alloc_reply, main.c:1217-1230, called with the data of the message, 1482-1490:
    [data] says whether there is any, [refused] is the response.  reg_respond_alloc,
    reg/reg.c:1729-1771. *)
Definition flow_alloc_reply (refused data : bool) : prog :=
  (* reg.c:1733 *)
  if refused && data then Abort else
  (* reg.c:1737-1746 *)
  If (Ret (bad EBADF)) (
  (* reg.c:1760-1761 *)
  dos (if negb refused && data then [Pass Rpk] else []) (Ret (Res None false))).
