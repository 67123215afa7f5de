(* The hand-over of arriving flow requests inside an IPCP (src/ipcpd/ipcp.c):
   ipcp_wait_flow_req_arr (264-310), ipcp_wait_flow_resp (312-341) and the way
   do_flow_alloc_resp (571-605) calls the response function of the IPCP.  All
   IPCP types that accept flows use it.  One step is one section under
   ipcpi.alloc_lock: the start of a call up to the wait, or a wake-up.  The
   time-out only wakes a waiter, so a waiter may run at any time. *)
From Coq Require Import List ZArith Bool Arith.
Import ListNotations.
Open Scope Z_scope.

(* Threads in one of the two waits; a thread in ipcp_wait_flow_resp holds the
   descriptor that it waits for. *)
Inductive pc : Type := InReq | InResp (fd : Z).

(* ipcp.h:100 alloc_id, -1 when no request is being handed over; the state of
   the IPCP is OPERATIONAL or not. *)
Record ipcp : Type := Ipcp {
  alloc_id : Z;
  oper : bool;
  thr : list (nat * pc)
}.

(* ipcp.c:899, once the IPCP is operational. *)
Definition ipcp_init : ipcp := Ipcp (-1) true [].

Inductive out : Type :=
| Wait                        (* the thread sleeps *)
| Published (t : nat) (fd : Z)  (* a request was accepted by the daemon as fd *)
| ReqFail (t : nat)           (* ipcp_wait_flow_req_arr returned an error *)
| Answered (t : nat) (fd : Z) (* ipcp_wait_flow_resp returned 0; fd >= 0 *)
| RespFail (t : nat)          (* ipcp_wait_flow_resp returned -1 *)
| OutOfBounds (t : nat).      (* it returned 0 and the caller indexes with -1 *)

Inductive event : Type :=
| Req (t : nat) (d : Z)      (* call; d is what ipcp_flow_req_arr will return *)
| ReqWake (t : nat) (d : Z)  (* the waiter runs again *)
| Resp (t : nat) (resp : Z) (fd : Z) (* do_flow_alloc_resp: the answer and the descriptor np1_flow_resp finds *)
| RespWake (t : nat)
| Stop.                      (* the IPCP leaves OPERATIONAL *)

Fixpoint find (l : list (nat * pc)) (t : nat) : option pc :=
  match l with
  | [] => None
  | (u, p) :: l' => if Nat.eqb u t then Some p else find l' t
  end.

Definition del (l : list (nat * pc)) (t : nat) : list (nat * pc) :=
  filter (fun q => negb (Nat.eqb (fst q) t)) l.

(* ipcp.c:281-309.  The assertion at 294 holds by the loop condition. *)
Definition req_loop (s : ipcp) (t : nat) (d : Z) : ipcp * out :=
  if negb (alloc_id s =? -1) && oper s then
    (Ipcp (alloc_id s) (oper s) ((t, InReq) :: del (thr s) t), Wait)
  else if negb (oper s) then
    (Ipcp (alloc_id s) (oper s) (del (thr s) t), ReqFail t)
  else if d <? 0 then
    (Ipcp (alloc_id s) (oper s) (del (thr s) t), ReqFail t)
  else (Ipcp d (oper s) (del (thr s) t), Published t d).

(* ipcp.c:321-340, and the use of fd as an index by the caller: fa.c:811,
   833, eth.c:1675, udp/main.c:1052, local/main.c:235, 244. *)
Definition resp_loop (s : ipcp) (t : nat) (fd : Z) : ipcp * out :=
  if negb (alloc_id s =? fd) && oper s then
    (Ipcp (alloc_id s) (oper s) ((t, InResp fd) :: del (thr s) t), Wait)
  else if negb (oper s) then
    (Ipcp (alloc_id s) (oper s) (del (thr s) t), RespFail t)
  else (Ipcp (-1) (oper s) (del (thr s) t),
        if fd <? 0 then OutOfBounds t else Answered t fd).

(* ipcp.c:576, 593-602: a refusal does not look up the descriptor.  (np1_flow_resp
   itself is in DevWaitModel.) *)
Definition resp_fd (resp fd : Z) : Z := if resp =? 0 then fd else -1.

Definition step (s : ipcp) (e : event) : ipcp * out :=
  match e with
  | Req t d => match find (thr s) t with None => req_loop s t d | _ => (s, Wait) end
  | ReqWake t d => match find (thr s) t with Some InReq => req_loop s t d | _ => (s, Wait) end
  | Resp t r fd =>
      match find (thr s) t with
      | None => if negb (oper s) then (s, RespFail t) else resp_loop s t (resp_fd r fd)
      | _ => (s, Wait)
      end
  | RespWake t => match find (thr s) t with Some (InResp fd) => resp_loop s t fd | _ => (s, Wait) end
  | Stop => (Ipcp (alloc_id s) false (thr s), Wait)
  end.

Fixpoint run (s : ipcp) (l : list event) : ipcp * list out :=
  match l with
  | [] => (s, [])
  | e :: l' =>
      let (s1, o) := step s e in
      match o with
      | OutOfBounds _ => (s1, [o])
      | _ => let (s2, os) := run s1 l' in (s2, o :: os)
      end
  end.
