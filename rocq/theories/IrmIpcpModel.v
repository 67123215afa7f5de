(** How the IRMd makes and destroys an IPCP: spawn_ipcp, kill_ipcp, create_ipcp,
    create_ipcp_r and destroy_ipcp, src/irmd/main.c:161-300, with reg_create_ipcp,
    reg_destroy_proc, reg_wait_ipcp_boot and reg_respond_ipcp, src/irmd/reg/reg.c:753-799,
    1100-1134, 2039-2120.

    The first part is one request to create an IPCP, step by step, beside the new process
    and the other requests that name its pid.  The second part is one request to destroy.

    Simplifications: names, types and the layer are left out; the state IPCP_INIT (reg.c:
    2052) is never stored and is left out; what happens under the registry's mutex is one
    step; a sleeping thread may wake at any time; the signal SIGTERM of kill_ipcp lets the
    process end but does not make it. *)
From Coq Require Import List ZArith Bool.
Import ListNotations.

(** The state stored for an IPCP. *)
Inductive ist := INull | IBoot | IOper | IBootstrapped.
(** The new process: not yet there; starting; ready; it has given up and still has to say
    so; it is to end; it has said goodbye; ended; ended and waited for. *)
Inductive child := NoChild | Starting | Ready | Leaving | Exiting | Dying | Zombie | Reaped.
(** Where create_ipcp is: before spawn_ipcp (250); before reg_create_ipcp (255); before
    reg_wait_ipcp_boot (260); asleep (reg.c:2071); before waitpid (270); before
    reg_destroy_proc (271); before kill (229); before waitpid (234); it returned; an assert
    failed; a null pointer was followed. *)
Inductive pc := PSpawn | PCreate | PEnter | PSleep | PWaitBoot | PDestroy | PKill | PWaitKill
              | PDone (ok : bool) | PAbort | PSegv.
(** The request, the process, its entry in the registry (reg.c:783) and whether it is among the
    spawned processes (784). *)
Record st := St { at_ : pc; proc : child; entry : option ist; spawned : bool }.
(** When create_ipcp is called, main.c:239-248. *)
Definition init : st := St PSpawn NoChild None false.

(** What can happen: the steps of create_ipcp (with the outcome where it can fail); of the
    new process; and of other requests: bootstrapping this IPCP, removing this pid from the
    registry (unbind_process without a name, main.c:550; destroy_ipcp, 292; irm_sanitize,
    1713), waiting for it (kill_ipcp, 234). *)
Inductive act :=
  | ASpawn (ok : bool) | ACreate (ok : bool) | AEnter | AWake | ATimeout | AWait | ADestroy | AKill
  | CReport | CFail | CQuit | CTellNull | CStop | CProcExit | CExit | CCrash
  | OBootstrap | ORemove | OReap.

(** Bookkeeping, no code: the request goes on to [p]; the process changes to [c]. *)
Definition goto (p : pc) (s : st) : st := St p (proc s) (entry s) (spawned s).
Definition become (c : child) (s : st) : st := St (at_ s) c (entry s) (spawned s).

(** reg_respond_ipcp, reg.c:2092-2120: false when there is no entry. *)
Definition respond (i : ist) (s : st) : bool * st :=
  match entry s with
  | None => (false, s)
  | Some _ => (true, St (at_ s) (proc s) (Some i) (spawned s))
  end.
(** reg_destroy_proc, reg.c:1100-1134; nobody is woken. *)
Definition remove (s : st) : st := St (at_ s) (proc s) None false.
(** reg_create_ipcp, reg.c:753-799; [mem]: both mallocs succeed. *)
Definition create (mem : bool) (s : st) : bool * st :=
  match entry s with
  | Some _ => (false, s)
  | None => if mem then (true, St (at_ s) (proc s) (Some IBoot) true) else (false, s)
  end.
(** The loop of reg_wait_ipcp_boot at its head, reg.c:2057-2076, and what create_ipcp does
    with the result, main.c:260-272. *)
Definition look (e : option ist) : pc :=
  match e with
  | None => PWaitBoot
  | Some INull => PWaitBoot
  | Some IOper => PDone true
  | Some IBoot => PSleep
  | Some IBootstrapped => PAbort
  end.

(** Whether the process runs; no code. *)
Definition alive (c : child) : bool :=
  match c with Starting | Ready | Leaving | Exiting | Dying => true | _ => false end.

(** One step; None: it cannot happen now. *)
Definition step (a : act) (s : st) : option st :=
  match a, at_ s, proc s with
  (* create_ipcp, main.c:250-253; spawn_program, 136-159 *)
  | ASpawn true, PSpawn, _ => Some (St PCreate Starting (entry s) (spawned s))
  | ASpawn false, PSpawn, _ => Some (goto (PDone false) s)
  (* 255-258 *)
  | ACreate m, PCreate, _ =>
      let '(ok, s') := create m s in Some (goto (if ok then PEnter else PKill) s')
  (* 260; reg.c:2050-2053 reads the entry without looking whether there is one *)
  | AEnter, PEnter, _ =>
      Some (goto (match entry s with None => PSegv | e => look e end) s)
  (* reg.c:2071-2078 *)
  | AWake, PSleep, _ => Some (goto (look (entry s)) s)
  (* reg.c:2071-2081, 2089: a timeout counts, whatever the state is *)
  | ATimeout, PSleep, _ => Some (goto PWaitBoot s)
  (* main.c:270, 234: waitpid; it fails at once when another thread waited *)
  | AWait, PWaitBoot, Zombie => Some (goto PDestroy (become Reaped s))
  | AWait, PWaitBoot, Reaped => Some (goto PDestroy s)
  | AWait, PWaitKill, Zombie => Some (goto (PDone false) (become Reaped s))
  | AWait, PWaitKill, Reaped => Some (goto (PDone false) s)
  (* 271-272 *)
  | ADestroy, PDestroy, _ => Some (goto (PDone false) (remove s))
  (* 274-277; kill fails when the process is gone, 229-232 *)
  | AKill, PKill, Reaped => Some (goto (PDone false) s)
  | AKill, PKill, _ => Some (goto PWaitKill s)
  (* ipcp_start, src/ipcpd/ipcp.c:959-966: it reports that it is ready *)
  | CReport, _, Starting =>
      let '(ok, s') := respond IOper s in Some (become (if ok then Ready else Leaving) s')
  (* ipcp.c:951-957, 968-976 *)
  | CFail, _, Starting => Some (become Leaving s)
  (* it ends before ipcp_start *)
  | CQuit, _, Starting => Some (become Exiting s)
  (* ipcp.c:976-978 *)
  | CTellNull, _, Leaving => Some (become Exiting (snd (respond INull s)))
  | CStop, _, Ready => Some (become Exiting s)
  (* proc_exit, src/lib/dev.c:746 and src/irmd/main.c:742-750 *)
  | CProcExit, _, Exiting => Some (become Dying (remove s))
  | CExit, _, Dying => Some (become Zombie s)
  | CCrash, _, c => if alive c then Some (become Zombie s) else None
  (* bootstrap_ipcp, main.c:323-325; reg_set_layer_for_ipcp, reg.c:1571-1573 *)
  | OBootstrap, _, Ready =>
      match entry s with
      | Some IOper => Some (St (at_ s) (proc s) (Some IBootstrapped) (spawned s))
      | _ => None
      end
  | ORemove, _, _ => Some (remove s)
  | OReap, _, Zombie => Some (become Reaped s)
  | _, _, _ => None
  end.

(** Steps one after the other; None if one cannot happen. *)
Fixpoint exec (s : st) (l : list act) : option st :=
  match l with
  | [] => Some s
  | a :: l => match step a s with Some s' => exec s' l | None => None end
  end.

(** * Destroying *)
Local Open Scope Z_scope.

(** A process of the machine: its pid, and whether it is in the process group of the IRMd. *)
Record process := Pr { pid : Z; mine : bool }.
(** The processes, and the pids the registry has as IPCPs, as processes and as spawned. *)
Record sys := Sys { procs : list process; ipcps : list Z; regd : list Z; children : list Z }.

(** Whom kill(2) signals, as called in main.c:229. *)
Definition signalled (n : Z) (p : process) : bool :=
  if 0 <? n then pid p =? n
  else if n =? 0 then mine p
  else if n =? -1 then negb (pid p =? 1)
  else false.
(** Removing a pid from a list of the registry, reg.c:1110, 1119, 1126. *)
Definition without (n : Z) (l : list Z) : list Z := filter (fun m => negb (m =? n)) l.
(** kill_ipcp, main.c:225-237, and destroy_ipcp, 285-300.  Whom is signalled ends.
    Simplified: groups other than the IRMd's cannot be named. *)
Definition destroy_ipcp (n : Z) (s : sys) : sys * Z :=
  if existsb (signalled n) (procs s) then
    (Sys (filter (fun p => negb (signalled n p)) (procs s))
         (without n (ipcps s)) (without n (regd s)) (without n (children s)), 0)
  else (s, -1).
(** irm_destroy_ipcp, src/lib/irm.c:79-105; EINVAL is 22. *)
Definition irm_destroy (n : Z) (s : sys) : sys * Z :=
  if n <? 0 then (s, -22) else destroy_ipcp n s.
