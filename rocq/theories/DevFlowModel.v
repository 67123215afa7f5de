(* The flow descriptors of a process (src/lib/dev.c): flow_init, __flow_fini,
   the calls that allocate and deallocate a flow, the check that every other
   call makes, and the clean-up when the process exits.

   The pool of descriptors is the bitmap of BitmapModel.  Rings, flow sets,
   and FRCT instances are handles: opening gives a handle that was never used
   before, closing a handle that is not open is undefined behaviour.  Each
   section under ai.lock is one step, so that calls of several threads
   interleave at the points where the code drops that lock.  The state of the
   flow id that np1_flow_resp waits for is in DevWaitModel, the timer thread
   in TwModel. *)
From Coq Require Import List ZArith NArith Bool.
From Verif Require Import BitmapModel.
Import ListNotations.
Open Scope Z_scope.

(* config.h.in: PROG_MAX_FLOWS, PROG_RES_FDS, SYS_MAX_FLOWS. *)
Definition PROG_MAX_FLOWS : Z := 4096.
Definition PROG_RES_FDS : Z := 64.
Definition SYS_MAX_FLOWS : Z := 10240.

(* dev.c:90-113 struct flow: info.id, rx_rb, tx_rb, set, frcti (None is NULL)
   and whether the list node is linked (after flow_clear it is all zero). *)
Record slot : Type := Slot {
  f_id : Z;
  f_rx : option nat;
  f_tx : option nat;
  f_set : option nat;
  f_frct : option nat;
  f_linked : bool
}.

(* dev.c:381-386 flow_clear. *)
Definition flow_clear : slot := Slot (-1) None None None None false.

(* dev.c:126-146, the parts of ai used here; id_to_fd is not initialised
   before the first flow with that id (None).  [next_h] is the next handle,
   [open_h] are the handles that are open; the kernel and the allocator keep
   these, not the process.  [pend] are the threads that are inside
   flow_dealloc, with the descriptor they were called for. *)
Record ai : Type := Ai {
  fds : bmp;
  flows : Z -> slot;
  id_to_fd : Z -> option Z;
  n_frcti : Z;
  next_h : nat;
  open_h : list nat;
  pend : list (nat * Z)
}.

(* A call ends with a result, or the behaviour is undefined: a NULL pointer,
   a handle used or closed after it was closed, an index outside an array, or
   an assertion that fails. *)
Inductive res (A : Type) : Type := Ok (a : A) | UB.
Arguments Ok {A} _.
Arguments UB {A}.

Definition bind {A B} (r : res A) (f : A -> res B) : res B :=
  match r with Ok a => f a | UB => UB end.

(* dev.c:573-619 init: the pool of descriptors and the cleared slots. *)
Definition ai_init : ai :=
  Ai (bmp_create (Z.to_N (PROG_MAX_FLOWS - PROG_RES_FDS)) PROG_RES_FDS)
     (fun _ => flow_clear) (fun _ => None) 0 0 [] [].

(* ai.flows[fd]: the array has PROG_MAX_FLOWS elements. *)
Definition get_slot (a : ai) (fd : Z) : res slot :=
  if (0 <=? fd) && (fd <? PROG_MAX_FLOWS) then Ok (flows a fd) else UB.

Definition set_slot (a : ai) (fd : Z) (s : slot) : ai :=
  Ai (fds a) (fun x => if x =? fd then s else flows a x) (id_to_fd a)
     (n_frcti a) (next_h a) (open_h a) (pend a).

Definition set_fds (a : ai) (b : bmp) : ai :=
  Ai b (flows a) (id_to_fd a) (n_frcti a) (next_h a) (open_h a) (pend a).

Definition set_map (a : ai) (id : Z) (v : Z) : ai :=
  Ai (fds a) (flows a) (fun x => if x =? id then Some v else id_to_fd a x)
     (n_frcti a) (next_h a) (open_h a) (pend a).

Definition set_nfrct (a : ai) (n : Z) : ai :=
  Ai (fds a) (flows a) (id_to_fd a) n (next_h a) (open_h a) (pend a).

Definition set_pend (a : ai) (l : list (nat * Z)) : ai :=
  Ai (fds a) (flows a) (id_to_fd a) (n_frcti a) (next_h a) (open_h a) l.

(* Opening a ring, a flow set or an FRCT instance. *)
Definition open_handle (a : ai) : ai * nat :=
  (Ai (fds a) (flows a) (id_to_fd a) (n_frcti a) (S (next_h a))
      (next_h a :: open_h a) (pend a), next_h a).

Definition is_open (a : ai) (h : nat) : bool := existsb (Nat.eqb h) (open_h a).

(* Closing it: only a handle that is open. *)
Definition close_handle (a : ai) (h : nat) : res ai :=
  if is_open a h
  then Ok (Ai (fds a) (flows a) (id_to_fd a) (n_frcti a) (next_h a)
              (filter (fun x => negb (Nat.eqb x h)) (open_h a)) (pend a))
  else UB.

(* The step of flow_init that fails, if any (dev.c:464-504).  The test
   [pthread_create(..) < 0] never holds and is left out. *)
Inductive fail : Type := NoFail | FailRx | FailTx | FailSet | FailCrypt | FailFrct | FailAdd.

Definition fail_eqb (x y : fail) : bool :=
  match x, y with
  | NoFail, NoFail | FailRx, FailRx | FailTx, FailTx | FailSet, FailSet
  | FailCrypt, FailCrypt | FailFrct, FailFrct | FailAdd, FailAdd => true
  | _, _ => false
  end.

Inductive result : Type :=
| RFd (fd : Z)          (* a descriptor, or 0 from flow_dealloc *)
| RFlow (id : Z)        (* the call was carried out on the flow with this id *)
| RPending              (* flow_dealloc waits for the IRM daemon *)
| EBADF | EINVAL | ENOTALLOC | ENOMEM | EIRMD.

(* dev.c:529-539: the fail labels, for the handles opened so far; the slot
   keeps what was stored in it, only the descriptor is given back. *)
Definition fail_out (a : ai) (fd : Z) (hs : list nat) : res (ai * result) :=
  bind (fold_left (fun r h => bind r (fun a => close_handle a h)) hs (Ok a))
       (fun a => match bmp_release (fds a) fd with
                 | Some (b, _) => Ok (set_fds a b, ENOMEM)
                 | None => UB
                 end).

(* dev.c:498-505: the FRCT instance of a flow that must be delivered in
   order. *)
Definition init_frct (a : ai) (fd : Z) (in_order : bool) (f : fail)
  (rx tx st : nat) (id : Z) : res (ai * option nat + ai * result) :=
  if negb in_order then Ok (inl (a, None))
  else if fail_eqb f FailFrct then
    bind (fail_out a fd [st; tx; rx]) (fun r => Ok (inr r))
  else
    let '(a, fr) := open_handle a in
    if fail_eqb f FailAdd then
      let a := set_slot a fd (Slot id (Some rx) (Some tx) (Some st) (Some fr)
                                   (f_linked (flows a fd))) in
      bind (fail_out a fd [fr; st; tx; rx]) (fun r => Ok (inr r))
    else Ok (inl (set_nfrct a (n_frcti a + 1), Some fr)).

(* dev.c:442-540 flow_init, for a flow with id [id] that is delivered in
   order or not. *)
Definition flow_init (a : ai) (id : Z) (in_order : bool) (f : fail) : res (ai * result) :=
  match bmp_allocate (fds a) with
  | None => UB
  | Some (b, fd) =>
      if negb (bmp_is_id_valid b fd) then Ok (set_fds a b, EBADF) else
      let a := set_fds a b in
      bind (get_slot a fd) (fun s0 =>
      (* dev.c:462: flow->info = *info *)
      let a := set_slot a fd (Slot id (f_rx s0) (f_tx s0) (f_set s0) (f_frct s0) (f_linked s0)) in
      if fail_eqb f FailRx then
        fail_out (set_slot a fd (Slot id None (f_tx s0) (f_set s0) (f_frct s0) (f_linked s0))) fd []
      else
      let '(a, rx) := open_handle a in
      if fail_eqb f FailTx then
        fail_out (set_slot a fd (Slot id (Some rx) None (f_set s0) (f_frct s0) (f_linked s0))) fd [rx]
      else
      let '(a, tx) := open_handle a in
      if fail_eqb f FailSet then
        fail_out (set_slot a fd (Slot id (Some rx) (Some tx) None (f_frct s0) (f_linked s0))) fd [tx; rx]
      else
      let '(a, st) := open_handle a in
      let a := set_slot a fd (Slot id (Some rx) (Some tx) (Some st) (f_frct s0) (f_linked s0)) in
      if fail_eqb f FailCrypt then fail_out a fd [st; tx; rx]
      else
      (* dev.c:493: assert(flow->frcti == NULL) *)
      match f_frct s0 with
      | Some _ => UB
      | None =>
          bind (init_frct a fd in_order f rx tx st id) (fun r =>
          match r with
          | inr out => Ok out
          | inl (a, fr) =>
              (* dev.c:513-515: the list and the map from ids *)
              let a := set_slot a fd (Slot id (Some rx) (Some tx) (Some st) fr true) in
              if (0 <=? id) && (id <? SYS_MAX_FLOWS)
              then Ok (set_map a id fd, RFd fd) else UB
          end)
      end)
  end.

(* close a ring or a flow set that may be NULL *)
Definition close_opt (a : ai) (h : option nat) : res ai :=
  match h with None => Ok a | Some h => close_handle a h end.

(* dev.c:388-431 __flow_fini. *)
Definition flow_fini (a : ai) (fd : Z) : res ai :=
  if negb ((0 <=? fd) && (fd <? SYS_MAX_FLOWS)) then UB else
  bind (get_slot a fd) (fun s =>
  (* the FRCT instance *)
  bind (match f_frct s with
        | None => Ok a
        | Some h => close_handle (set_nfrct a (n_frcti a - 1)) h
        end) (fun a =>
  (* flow_destroy clears the map, bmp_release gives the descriptor back *)
  bind (if f_id s =? -1 then Ok a
        else if (0 <=? f_id s) && (f_id s <? SYS_MAX_FLOWS) then
          match bmp_release (fds a) fd with
          | Some (b, _) => Ok (set_fds (set_map a (f_id s) (-1)) b)
          | None => UB
          end
        else UB) (fun a =>
  bind (close_opt a (f_rx s)) (fun a =>
  bind (close_opt a (f_tx s)) (fun a =>
  bind (close_opt a (f_set s)) (fun a =>
  (* list_del of a node that is all zero follows a NULL pointer *)
  if f_linked s then Ok (set_slot a fd flow_clear) else UB)))))).

(* What threads of the process do.  A thread is a number. *)
Inductive event : Type :=
(* flow_alloc, flow_accept, flow_join, np1_flow_alloc, ipcp_flow_req_arr once
   the flow with this id exists (dev.c:762-883, 1732-1748, 1807-1842) *)
| Alloc (id : Z) (in_order : bool) (f : fail)
(* flow_read, flow_write: dev.c:1243-1257, 1355-1367 *)
| Use (fd : Z)
(* fccntl: dev.c:1016-1033 *)
| Cntl (fd : Z)
(* flow_dealloc up to the request to the IRM daemon: dev.c:886-952 *)
| DeallocBegin (t : nat) (fd : Z)
(* the rest, if the daemon answered: dev.c:954-963; or not: 954-956 *)
| DeallocEnd (t : nat) (answered : bool)
(* np1_flow_dealloc, np1_flow_resp, fqueue_next: the descriptor of an id *)
| Lookup (id : Z)
(* the process exits: dev.c:700-751 *)
| Exit.

(* A call that touches the rings of the flow: both must be open. *)
Definition touch (a : ai) (s : slot) : res (ai * result) :=
  match f_rx s, f_tx s with
  | Some rx, Some tx => if is_open a rx && is_open a tx then Ok (a, RFlow (f_id s)) else UB
  | _, _ => UB
  end.

(* dev.c:1243-1257, 1355-1367. *)
Definition flow_use (a : ai) (fd : Z) : res (ai * result) :=
  if (fd <? 0) || (PROG_MAX_FLOWS <=? fd) then Ok (a, EBADF) else
  bind (get_slot a fd) (fun s => if f_id s <? 0 then Ok (a, ENOTALLOC) else touch a s).

(* dev.c:1016-1033. *)
Definition flow_cntl (a : ai) (fd : Z) : res (ai * result) :=
  if (fd <? 0) || (SYS_MAX_FLOWS <=? fd) then Ok (a, EBADF) else
  bind (get_slot a fd) (fun s => if f_id s <? 0 then Ok (a, ENOTALLOC) else touch a s).

(* dev.c:886-952. *)
Definition dealloc_begin (a : ai) (t : nat) (fd : Z) : res (ai * result) :=
  if (fd <? 0) || (SYS_MAX_FLOWS <=? fd) then Ok (a, EINVAL) else
  bind (get_slot a fd) (fun s =>
  if f_id s <? 0 then Ok (a, ENOTALLOC)
  else bind (touch a s) (fun _ => Ok (set_pend a ((t, fd) :: pend a), RPending))).

Fixpoint pend_find (l : list (nat * Z)) (t : nat) : option Z :=
  match l with
  | [] => None
  | (u, fd) :: l' => if Nat.eqb u t then Some fd else pend_find l' t
  end.

Definition pend_del (l : list (nat * Z)) (t : nat) : list (nat * Z) :=
  filter (fun p => negb (Nat.eqb (fst p) t)) l.

(* dev.c:954-963.  A thread that is not in flow_dealloc does nothing. *)
Definition dealloc_end (a : ai) (t : nat) (answered : bool) : res (ai * result) :=
  match pend_find (pend a) t with
  | None => Ok (a, EINVAL)
  | Some fd =>
      let a := set_pend a (pend_del (pend a) t) in
      if answered then bind (flow_fini a fd) (fun a => Ok (a, RFd 0))
      else Ok (a, EIRMD)
  end.

(* dev.c:1750-1771, 1773-1787: ai.id_to_fd[flow_id].fd; reading a map entry
   that was never written is undefined. *)
Definition lookup (a : ai) (id : Z) : res (ai * result) :=
  if (0 <=? id) && (id <? SYS_MAX_FLOWS) then
    match id_to_fd a id with
    | Some fd => Ok (a, RFd fd)
    | None => UB
    end
  else UB.

(* dev.c:711-719: every slot that has a flow; the packets that were not read
   are dropped from the ring, which must be open. *)
Definition exit_slot (a : ai) (fd : Z) : res ai :=
  bind (get_slot a fd) (fun s =>
  if f_id s =? -1 then Ok a
  else match f_rx s with
       | Some h => if is_open a h then flow_fini a fd else UB
       | None => UB
       end).

Definition exit_loop (a : ai) (l : list Z) : res ai :=
  fold_left (fun r fd => bind r (fun a => exit_slot a fd)) l (Ok a).

Definition all_fds : list Z := map Z.of_nat (seq 0 (Z.to_nat PROG_MAX_FLOWS)).

Definition step (a : ai) (e : event) : res (ai * result) :=
  match e with
  | Alloc id o f => flow_init a id o f
  | Use fd => flow_use a fd
  | Cntl fd => flow_cntl a fd
  | DeallocBegin t fd => dealloc_begin a t fd
  | DeallocEnd t ok => dealloc_end a t ok
  | Lookup id => lookup a id
  | Exit => bind (exit_loop a all_fds) (fun a => Ok (a, RFd 0))
  end.

(* A history: the state at the end and the results of the calls. *)
Fixpoint run (a : ai) (l : list event) : res (ai * list result) :=
  match l with
  | [] => Ok (a, [])
  | e :: l' =>
      bind (step a e) (fun p =>
      bind (run (fst p) l') (fun q => Ok (fst q, snd p :: snd q)))
  end.
