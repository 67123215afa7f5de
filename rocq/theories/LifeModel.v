(** The life of an IPCP: the state of src/ipcpd/ipcp.c between the threads that
    execute commands (do_bootstrap, do_enroll, 349-404) and the main thread, which
    waits for the signal to stop (ipcp_sigwait, 981-1035) and then ends (main of
    unicast/main.c:317-339, local/main.c:319-337 and the other kinds).

    Every reading and writing of the state is one step (ipcp_set_state and
    ipcp_get_state hold a mutex, 1074-1095).  Worker threads have no names: it is
    counted how many are between the check of the state and the end of the
    operation, and how many between that and ipcp_set_state.

    Simplifications: what an operation does is left out, except that it may set the
    state to IPCP_INIT (unicast/main.c:101, 161, broadcast/main.c:69, 96,
    local/main.c:153) and that it succeeds or fails; ipcp_stop, which ends the
    worker threads, comes after the end here. *)
From Coq Require Import List.
From Verif Require Import IpcpCmdModel.
Import ListNotations.

(** Where the main thread is: the two readings of the loop condition (996-997),
    waiting (1001), the readings and writings when the signal has come
    (1021-1025), after the loop, and at the end; [Ended true] if the components
    (or the threads) of the IPCP were stopped. *)
Inductive main := Loop1 | Loop2 | Wait | SeesInit | SetsNull | SeesOper | SetsShut | After | Ended (stopped : bool).
Record sys := Sys { st : state; running : nat; setting : nat; succeeded : nat; at_ : main }.
(* ipcp_init: 903 *)
Definition start : sys := Sys SInit 0 0 0 Loop1.

Inductive worker :=
| Check     (* 362, 391: a command finds the state IPCP_INIT *)
| Reset     (* ipcp_set_state(IPCP_INIT) in the operation *)
| OpFails | OpSucceeds
| SetOper.  (* 372, 400 *)
Definition work (w : worker) (s : sys) : option sys :=
  match w with
  | Check => if is_init (st s) then Some (Sys (st s) (S (running s)) (setting s) (succeeded s) (at_ s)) else None
  | Reset => match running s with O => None | S _ => Some (Sys SInit (running s) (setting s) (succeeded s) (at_ s)) end
  | OpFails => match running s with O => None | S n => Some (Sys (st s) n (setting s) (succeeded s) (at_ s)) end
  | OpSucceeds => match running s with O => None | S n => Some (Sys (st s) n (S (setting s)) (S (succeeded s)) (at_ s)) end
  | SetOper => match setting s with O => None | S n => Some (Sys SOper (running s) n (succeeded s) (at_ s)) end
  end.
Definition goto (s : sys) (m : main) : sys := Sys (st s) (running s) (setting s) (succeeded s) m.
Definition put (s : sys) (x : state) (m : main) : sys := Sys x (running s) (setting s) (succeeded s) m.
(** A step of the main thread, which does nothing while it waits or after the end. *)
Definition go (s : sys) : option sys :=
  match at_ s with
  | Loop1 => Some (goto s (match st s with SNull => After | _ => Loop2 end))
  | Loop2 => Some (goto s (match st s with SShut => After | _ => Wait end))
  | Wait => None
  | SeesInit => Some (goto s (if is_init (st s) then SetsNull else SeesOper))
  | SetsNull => Some (put s SNull SeesOper)
  | SeesOper => Some (goto s (if is_oper (st s) then SetsShut else Loop1))
  | SetsShut => Some (put s SShut Loop1)
  (* unicast/main.c:324, local/main.c:326 *)
  | After => Some (goto s (Ended (match st s with SShut => true | _ => false end)))
  | Ended _ => None
  end.
Inductive event :=
| Worker (w : worker)
| Main
| Stop      (* SIGINT, SIGQUIT, SIGHUP or SIGTERM of the IRMd *)
| Other.    (* another signal, or one of another process *)
Definition step (e : event) (s : sys) : option sys :=
  match e with
  | Worker w => work w s
  | Main => go s
  | Stop => match at_ s with Wait => Some (goto s SeesInit) | _ => None end
  | Other => match at_ s with Wait => Some (goto s Loop1) | _ => None end
  end.
Fixpoint run (es : list event) (s : sys) : option sys :=
  match es with
  | [] => Some s
  | e :: es => match step e s with Some s' => run es s' | None => None end
  end.
