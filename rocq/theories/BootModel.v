(** How an IPCP starts, joins a layer and ends: every thing that the functions of
    ipcp.c, unicast/main.c, broadcast/main.c and of the components acquire and
    release, with the labels to which they jump when an acquisition fails.

    A function is a tree: at every call that can fail it forks.  Running it yields
    the calls made ([ev]), and what it returned.

    Simplifications: what the things contain and what happens between two calls is
    left out; a thread pool that is stopped (tpm_stop) and a packet scheduler are
    one thing each (modelled in TpmModel and PschedModel); the PROG_MAX_FLOWS
    locks of dt.c:640-646 are one thing, the loop that makes them is [make_all]
    below; a failing random_buffer, a bad configuration, a peer that refuses and a
    failing call are all the same: the answer "no" of a fork. *)
From Coq Require Import List Arith Bool NArith.
Import ListNotations.

(* enum comp_id: common/comp.h:30-35 *)
Inductive comp := CDt | CEnr | CMgmt.

Inductive res :=
(* ipcp.c: struct ipcp, fields and threads made in 809-979 *)
| Log | SockPath | SockFd | SockFile | StateMtx | IpcpCattr | StateCond | AllocLock | AllocCond
| CmdLock | CmdCond | RibFs | RibInfo | Tpm | TpmRun | Acceptor
(* lib/notifier.c:44-52, and the listeners of connmgr, link-state, dt, dht and the broadcast dt *)
| Notif | CmNotif | LsNotif | DtNotif | DhtNotif | BNotif
(* connmgr.c:254, 279-284; enroll.c:325; the flow for the enrollment *)
| CmThr | CMtx (c : comp) | CCond (c : comp) | EnThr | EnFlow
(* unicast/main.c:67, 81 *)
| AddrAuth | CaOps
(* link-state.c:953-986 *)
| Graph | DbLock | RiLock | LsSet | LsUpd | LsRd | LsLis | LsRib
(* unicast/dt.c:610-651, 709-720; dt.comps *)
| Pff (i : nat) | Ri (i : nat) | DtLock | ResFds | StatLocks | DtRib | DtPsched | DtThr | Comp (i : nat)
(* fa.c:635-654, 691-697 *)
| FaLock | FaMtx | FaCattr | FaCond | FaRib | FaPsched | FaThr
(* dht.c:2815-2848, 2261-2276 *)
| DhtMem | DhtLock | DhtMtx | DhtCond | DhtBmp | DhtTpm | DhtRun | DhtId | DhtBkt | DhtThr
(* broadcast/dt.c:260-270 *)
| BLock | BSet | BRd | BLis.

Definition ccode (c : comp) : nat := match c with CDt => 0 | CEnr => 1 | CMgmt => 2 end.
Definition code (r : res) : N * nat := (match r with
  | Log => (0, 0%nat) | SockPath => (1, 0%nat) | SockFd => (2, 0%nat) | SockFile => (3, 0%nat) | StateMtx => (4, 0%nat)
  | IpcpCattr => (5, 0%nat) | StateCond => (6, 0%nat) | AllocLock => (7, 0%nat) | AllocCond => (8, 0%nat)
  | CmdLock => (9, 0%nat) | CmdCond => (10, 0%nat) | RibFs => (11, 0%nat) | RibInfo => (12, 0%nat)
  | Tpm => (13, 0%nat) | TpmRun => (14, 0%nat) | Acceptor => (15, 0%nat)
  | Notif => (16, 0%nat) | CmNotif => (17, 0%nat) | LsNotif => (18, 0%nat) | DtNotif => (19, 0%nat)
  | DhtNotif => (20, 0%nat) | BNotif => (21, 0%nat)
  | CmThr => (22, 0%nat) | CMtx c => (23, ccode c) | CCond c => (24, ccode c) | EnThr => (25, 0%nat) | EnFlow => (26, 0%nat)
  | AddrAuth => (27, 0%nat) | CaOps => (28, 0%nat)
  | Graph => (29, 0%nat) | DbLock => (30, 0%nat) | RiLock => (31, 0%nat) | LsSet => (32, 0%nat) | LsUpd => (33, 0%nat)
  | LsRd => (34, 0%nat) | LsLis => (35, 0%nat) | LsRib => (36, 0%nat)
  | Pff i => (37, i) | Ri i => (38, i) | DtLock => (39, 0%nat) | ResFds => (40, 0%nat) | StatLocks => (41, 0%nat)
  | DtRib => (42, 0%nat) | DtPsched => (43, 0%nat) | DtThr => (44, 0%nat) | Comp i => (45, i)
  | FaLock => (46, 0%nat) | FaMtx => (47, 0%nat) | FaCattr => (48, 0%nat) | FaCond => (49, 0%nat) | FaRib => (50, 0%nat)
  | FaPsched => (51, 0%nat) | FaThr => (52, 0%nat)
  | DhtMem => (53, 0%nat) | DhtLock => (54, 0%nat) | DhtMtx => (55, 0%nat) | DhtCond => (56, 0%nat) | DhtBmp => (57, 0%nat)
  | DhtTpm => (58, 0%nat) | DhtRun => (59, 0%nat) | DhtId => (60, 0%nat) | DhtBkt => (61, 0%nat) | DhtThr => (62, 0%nat)
  | BLock => (63, 0%nat) | BSet => (64, 0%nat) | BRd => (65, 0%nat) | BLis => (66, 0%nat)
  end)%N.
Definition res_eqb (a b : res) : bool :=
  N.eqb (fst (code a)) (fst (code b)) && Nat.eqb (snd (code a)) (snd (code b)).
Definition mem (r : res) (l : list res) : bool := existsb (res_eqb r) l.
Fixpoint drop (r : res) (l : list res) : list res :=
  match l with [] => [] | x :: t => if res_eqb r x then t else x :: drop r t end.

(** The calls: a thing is acquired, released (joined, for a thread), a thread is
    told to stop. *)
Inductive ev := Got (r : res) | Gone (r : res) | Cancel (r : res).

Inductive prog (A : Type) :=
| Ret (a : A)
| Try (r : res) (k : bool -> prog A)    (* a call that can fail *)
| Ask (k : bool -> prog A)              (* a call that can fail and acquires nothing *)
| Do (e : ev) (p : prog A)
| Abort.                                (* a failing assert *)
Arguments Ret {A}. Arguments Try {A}. Arguments Ask {A}. Arguments Do {A}. Arguments Abort {A}.

(** The answers of the calls that can fail, in order; without an answer they succeed. *)
Fixpoint run {A} (p : prog A) (ans : list bool) : option A * list ev * list bool :=
  match p with
  | Ret a => (Some a, [], ans)
  | Abort => (None, [], ans)
  | Do e q => let '(a, es, rest) := run q ans in (a, e :: es, rest)
  | Try r k =>
      match ans with
      | [] => let '(a, es, rest) := run (k true) [] in (a, Got r :: es, rest)
      | true :: t => let '(a, es, rest) := run (k true) t in (a, Got r :: es, rest)
      | false :: t => run (k false) t
      end
  | Ask k => match ans with [] => run (k true) [] | b :: t => run (k b) t end
  end.

(** The variables that are read again: the names in the RIB, the registered
    listeners, dt.comps, the ids given out from dt.res_fds, the components of
    connmgr with a name, enroll.state and connmgr.state (true: RUNNING), dht->state
    (true: RUNNING). *)
Record view := View { v_rib : list res; v_notif : list res; v_comps : list nat; v_ids : nat;
                      v_named : list comp; v_en : bool; v_cm : bool; v_dht : bool }.
Definition view0 : view := View [] [] [] 0 [] false false false.

Definition M (A : Type) := view -> prog (A * view).
Fixpoint pbind {A B} (p : prog A) (f : A -> prog B) : prog B :=
  match p with
  | Ret a => f a
  | Try r k => Try r (fun b => pbind (k b) f)
  | Ask k => Ask (fun b => pbind (k b) f)
  | Do e q => Do e (pbind q f)
  | Abort => Abort
  end.
Definition ret {A} (a : A) : M A := fun v => Ret (a, v).
Definition bind {A B} (m : M A) (f : A -> M B) : M B := fun v => pbind (m v) (fun av => f (fst av) (snd av)).
Definition try (r : res) : M bool := fun v => Try r (fun b => Ret (b, v)).
Definition ask : M bool := fun v => Ask (fun b => Ret (b, v)).
Definition out (e : ev) : M unit := fun v => Do e (Ret (tt, v)).
Definition gone (r : res) : M unit := out (Gone r).
Definition set (f : view -> view) : M unit := fun v => Ret (tt, f v).
Definition get {A} (f : view -> A) : M A := fun v => Ret (f v, v).
Definition abort {A} : M A := fun _ => Abort.
Notation "'do' x <- m ;; f" := (bind m (fun x => f)) (at level 61, x name, m at level 60, right associativity).
Notation "m ;; f" := (bind m (fun _ => f)) (at level 61, right associativity).
Notation "'ok' m 'then' a 'orelse' b" := (bind m (fun x => if x then a else b)) (at level 61, m at level 60, a at level 61, right associativity).
Definition no : M bool := ret false.
Definition yes : M bool := ret true.
(* pthread_cancel, pthread_join *)
Definition join (r : res) : M unit := out (Cancel r) ;; gone r.

(* rib_reg, rib_unreg: lib/rib.c (a name is registered once; modelled in RibModel) *)
Definition rib_reg (r : res) : M bool :=
  do there <- get (fun v => mem r (v_rib v)) ;;
  if there then no
  else do b <- try r ;;
       if b then set (fun v => View (r :: v_rib v) (v_notif v) (v_comps v) (v_ids v) (v_named v) (v_en v) (v_cm v) (v_dht v)) ;; yes else no.
Definition rib_unreg (r : res) : M unit :=
  set (fun v => View (drop r (v_rib v)) (v_notif v) (v_comps v) (v_ids v) (v_named v) (v_en v) (v_cm v) (v_dht v)) ;; gone r.
(* notifier_reg, notifier_unreg, notifier_fini: lib/notifier.c:54-70 and below (see NotifierModel) *)
Definition notifier_reg (r : res) : M bool :=
  do b <- try r ;;
  if b then set (fun v => View (v_rib v) (r :: v_notif v) (v_comps v) (v_ids v) (v_named v) (v_en v) (v_cm v) (v_dht v)) ;; yes else no.
Definition notifier_unreg (r : res) : M unit :=
  set (fun v => View (v_rib v) (drop r (v_notif v)) (v_comps v) (v_ids v) (v_named v) (v_en v) (v_cm v) (v_dht v)) ;; gone r.
Definition notifier_fini : M unit :=
  do l <- get v_notif ;;
  (fix go (l : list res) : M unit := match l with [] => gone Notif | r :: t => gone r ;; go t end) l.

(* connmgr_comp_init: common/connmgr.c:270-300 *)
Definition connmgr_comp_init (c : comp) : M bool :=
  ok try (CMtx c) then
    ok try (CCond c) then
      set (fun v => View (v_rib v) (v_notif v) (v_comps v) (v_ids v) (c :: v_named v) (v_en v) (v_cm v) (v_dht v)) ;; yes
    orelse (gone (CMtx c) ;; no)
  orelse no.
Definition comp_eqb (a b : comp) : bool := Nat.eqb (ccode a) (ccode b).
(* connmgr_comp_fini: 302-335 *)
Definition connmgr_comp_fini (c : comp) : M unit :=
  do named <- get (fun v => existsb (comp_eqb c) (v_named v)) ;;
  if named then
    gone (CCond c) ;; gone (CMtx c) ;;
    set (fun v => View (v_rib v) (v_notif v) (v_comps v) (v_ids v) (filter (fun x => negb (comp_eqb c x)) (v_named v)) (v_en v) (v_cm v) (v_dht v))
  else ret tt.
(* connmgr_init 227-237, connmgr_fini 239-250, connmgr_start 252-262, connmgr_stop 264-268 *)
Definition connmgr_init : M bool :=
  set (fun v => View (v_rib v) (v_notif v) (v_comps v) (v_ids v) (v_named v) (v_en v) false (v_dht v)) ;;
  notifier_reg CmNotif.
Definition connmgr_fini : M unit :=
  notifier_unreg CmNotif ;;
  do running <- get v_cm ;;
  (if running then gone CmThr else ret tt) ;;
  connmgr_comp_fini CDt ;; connmgr_comp_fini CEnr ;; connmgr_comp_fini CMgmt.
Definition connmgr_start : M bool :=
  ok try CmThr then
    set (fun v => View (v_rib v) (v_notif v) (v_comps v) (v_ids v) (v_named v) (v_en v) true (v_dht v)) ;; yes
  orelse no.
Definition connmgr_stop : M unit :=
  do running <- get v_cm ;; if running then out (Cancel CmThr) else ret tt.
(* enroll_init 293-313, enroll_fini 315-321, enroll_start 323-331, enroll_stop 333-337 of common/enroll.c *)
Definition enroll_init : M bool :=
  ok connmgr_comp_init CEnr then
    set (fun v => View (v_rib v) (v_notif v) (v_comps v) (v_ids v) (v_named v) false (v_cm v) (v_dht v)) ;; yes
  orelse no.
Definition enroll_fini : M unit :=
  do running <- get v_en ;; (if running then gone EnThr else ret tt) ;; connmgr_comp_fini CEnr.
Definition enroll_start : M bool :=
  ok try EnThr then
    set (fun v => View (v_rib v) (v_notif v) (v_comps v) (v_ids v) (v_named v) true (v_cm v) (v_dht v)) ;; yes
  orelse no.
Definition enroll_stop : M unit :=
  do running <- get v_en ;; if running then out (Cancel EnThr) else ret tt.

(* ipcp_init: ipcp.c:809-931; parse_args and log_init 818-821, ipcp_sock_path 830,
   server_socket_open 834 makes the descriptor and the file *)
Definition f_sock_path : M bool := no.
Definition f_serv_sock : M bool := gone SockPath ;; f_sock_path.
Definition f_state_mtx : M bool := gone SockFd ;; f_serv_sock.
Definition f_cond_attr : M bool := gone StateMtx ;; f_state_mtx.
Definition f_state_cond : M bool := gone IpcpCattr ;; f_cond_attr.
Definition f_alloc_lock : M bool := gone StateCond ;; f_state_cond.
Definition f_alloc_cond : M bool := gone AllocLock ;; f_alloc_lock.
Definition f_cmd_lock : M bool := gone AllocCond ;; f_alloc_cond.
Definition f_cmd_cond : M bool := gone CmdLock ;; f_cmd_lock.
Definition f_rib_init : M bool := gone CmdCond ;; f_cmd_cond.
Definition f_rib_reg : M bool := gone RibFs ;; f_rib_init.
Definition f_tpm_create : M bool := rib_unreg RibInfo ;; f_rib_reg.
Definition ipcp_init : M bool :=
  ok ask then
    out (Got Log) ;;
    ok try SockPath then
     ok try SockFd then
      out (Got SockFile) ;;
      ok try StateMtx then
       ok try IpcpCattr then
        ok try StateCond then
         ok try AllocLock then
          ok try AllocCond then
           ok try CmdLock then
            ok try CmdCond then
             ok try RibFs then
              ok rib_reg RibInfo then
               ok try Tpm then
                (gone IpcpCattr ;; yes)
               orelse f_tpm_create
              orelse f_rib_reg
             orelse f_rib_init
            orelse f_cmd_cond
           orelse f_cmd_lock
          orelse f_alloc_cond
         orelse f_alloc_lock
        orelse f_state_cond
       orelse f_cond_attr
      orelse f_state_mtx
     orelse f_serv_sock
    orelse f_sock_path
  orelse no.
(* ipcp_start: 933-979; the second ipcp_create_r (977) tells the IRMd *)
Definition f_tpm_start : M bool := gone Tpm ;; do told <- ask ;; no.
Definition f_acceptor : M bool := join TpmRun ;; f_tpm_start.
Definition f_create_r : M bool := join Acceptor ;; f_acceptor.
Definition ipcp_start : M bool :=
  ok try TpmRun then
    ok try Acceptor then
      ok ask then yes orelse f_create_r
    orelse f_acceptor
  orelse f_tpm_start.
(* ipcp_stop: 1037-1045 *)
Definition ipcp_stop : M unit := join Acceptor ;; join TpmRun.
(* ipcp_fini: 1047-1072 *)
Definition ipcp_fini : M unit :=
  gone Tpm ;; rib_unreg RibInfo ;; gone RibFs ;; gone SockFd ;; gone SockFile ;; gone SockPath ;;
  gone StateCond ;; gone StateMtx ;; gone AllocCond ;; gone AllocLock ;; gone CmdCond ;; gone CmdLock ;; gone Log.

(* main, until ipcp_sigwait: unicast/main.c:294-320, 341-350; broadcast/main.c:264-290, 311-320 *)
Definition m_init : M bool := no.
Definition m_notifier_init : M bool := ipcp_fini ;; m_init.
Definition m_connmgr_init : M bool := notifier_fini ;; m_notifier_init.
Definition m_enroll_init : M bool := connmgr_fini ;; m_connmgr_init.
Definition m_start : M bool := enroll_fini ;; m_enroll_init.
Definition main_start : M bool :=
  ok ipcp_init then
    ok try Notif then
      ok connmgr_init then
        ok enroll_init then
          ok ipcp_start then yes orelse m_start
        orelse m_enroll_init
      orelse m_connmgr_init
    orelse m_notifier_init
  orelse m_init.
(* main, after stop_components and finalize_components: unicast/main.c:329-337, broadcast/main.c:299-307 *)
Definition main_end : M unit :=
  ipcp_stop ;; enroll_fini ;; connmgr_fini ;; notifier_fini ;; ipcp_fini.

(* link_state_init: unicast/routing/link-state.c:945-1017 (its table of policies: 936-951, as a call that may fail) *)
Definition l_graph : M bool := no.
Definition l_notifier : M bool := gone Graph ;; l_graph.
Definition l_db_lock : M bool := notifier_unreg LsNotif ;; l_notifier.
Definition l_ri_lock : M bool := gone DbLock ;; l_db_lock.
Definition l_connmgr : M bool := gone RiLock ;; l_ri_lock.
Definition l_fset : M bool := connmgr_comp_fini CMgmt ;; l_connmgr.
Definition l_upd : M bool := gone LsSet ;; l_fset.
Definition l_rd : M bool := join LsUpd ;; l_upd.
Definition l_lis : M bool := join LsRd ;; l_rd.
Definition l_rib : M bool := join LsLis ;; l_lis.
Definition link_state_init : M bool :=
  ok ask then
   ok try Graph then
    ok notifier_reg LsNotif then
     ok try DbLock then
      ok try RiLock then
       ok connmgr_comp_init CMgmt then
        ok try LsSet then
         ok try LsUpd then
          ok try LsRd then
           ok try LsLis then
            ok rib_reg LsRib then yes orelse l_rib
           orelse l_lis
          orelse l_rd
         orelse l_upd
        orelse l_fset
       orelse l_connmgr
      orelse l_ri_lock
     orelse l_db_lock
    orelse l_notifier
   orelse l_graph
  orelse l_graph.
(* link_state_fini: 1019-1055 *)
Definition link_state_fini : M unit :=
  rib_unreg LsRib ;; notifier_unreg LsNotif ;;
  out (Cancel LsLis) ;; out (Cancel LsRd) ;; out (Cancel LsUpd) ;;
  gone LsLis ;; gone LsRd ;; gone LsUpd ;;
  gone LsSet ;; connmgr_comp_fini CMgmt ;; gone Graph ;; gone DbLock ;; gone RiLock.

(** The loops of dt_init (unicast/dt.c:610-618, 620-627, 640-646): acquire the
    [n] things from number [i] on; if one fails release those of this loop. *)
Fixpoint gone_all (f : nat -> res) (i n : nat) : M unit :=
  match n with O => ret tt | S m => gone (f i) ;; gone_all f (S i) m end.
Fixpoint make_all (f : nat -> res) (i n : nat) : M bool :=
  match n with
  | O => yes
  | S m => ok try (f i) then make_all f (S i) m orelse (gone_all f 0 i ;; no)
  end.
(* QOS_CUBE_MAX *)
Definition QOS_CUBE_MAX : nat := 3.
(* PROG_RES_FDS *)
Definition PROG_RES_FDS : nat := 64.

(* routing_init: unicast/routing.c:33-58; routing_fini: 70-73 *)
Definition routing_init : M bool := ok ask then link_state_init orelse no.
Definition routing_fini : M unit := link_state_fini.

(* dt_init: unicast/dt.c:568-679 *)
Definition d_connmgr : M bool := no.
Definition d_routing : M bool := connmgr_comp_fini CDt ;; d_connmgr.
Definition d_pff : M bool := routing_fini ;; d_routing.
Definition d_ri : M bool := gone_all Pff 0 QOS_CUBE_MAX ;; d_pff.
Definition d_lock : M bool := gone_all Ri 0 QOS_CUBE_MAX ;; d_ri.
Definition d_res : M bool := gone DtLock ;; d_lock.
Definition d_stat : M bool := gone ResFds ;; d_res.
Definition d_rib : M bool := gone StatLocks ;; d_stat.
Definition dt_init : M bool :=
  ok connmgr_comp_init CDt then
   ok routing_init then
    ok make_all Pff 0 QOS_CUBE_MAX then
     ok make_all Ri 0 QOS_CUBE_MAX then
      ok try DtLock then
       ok try ResFds then
        set (fun v => View (v_rib v) (v_notif v) (v_comps v) 0 (v_named v) (v_en v) (v_cm v) (v_dht v)) ;;
        ok try StatLocks then
         ok rib_reg DtRib then yes orelse d_rib
        orelse d_stat
       orelse d_res
      orelse d_lock
     orelse d_ri
    orelse d_pff
   orelse d_routing
  orelse d_connmgr.
(* dt_fini: 681-705 *)
Definition dt_fini : M unit :=
  rib_unreg DtRib ;; gone StatLocks ;; gone ResFds ;; gone DtLock ;;
  gone_all Ri 0 QOS_CUBE_MAX ;; gone_all Pff 0 QOS_CUBE_MAX ;; routing_fini ;; connmgr_comp_fini CDt.
(* dt_start: 707-733 *)
Definition dt_start : M bool :=
  ok try DtPsched then
    ok notifier_reg DtNotif then
      ok try DtThr then yes orelse (gone DtPsched ;; no)
    orelse (gone DtPsched ;; no)
  orelse no.
(* dt_stop: 735-743 *)
Definition dt_stop : M unit := join DtThr ;; notifier_unreg DtNotif ;; gone DtPsched.
(* dt_reg_comp: 745-775; dbg: the assertions are compiled in.  Nothing clears an
   entry of dt.comps, so an entry that is set again is not a new thing. *)
Definition dt_reg_comp (dbg : bool) : M bool :=
  do i <- get v_ids ;;
  do was <- get (fun v => existsb (Nat.eqb i) (v_comps v)) ;;
  if PROG_RES_FDS <=? i then no
  else if dbg && was then abort
  else (if was then ret tt else out (Got (Comp i))) ;;
       set (fun v => View (v_rib v) (v_notif v) (if was then v_comps v else i :: v_comps v) (S i) (v_named v) (v_en v) (v_cm v) (v_dht v)) ;; yes.

(* fa_init: unicast/fa.c:631-674; fa_fini: 676-683; fa_start: 685-729; fa_stop: 731-737 *)
Definition a_rwlock : M bool := no.
Definition a_mtx : M bool := gone FaLock ;; a_rwlock.
Definition a_cattr : M bool := gone FaMtx ;; a_mtx.
Definition a_cond : M bool := gone FaCattr ;; a_cattr.
Definition a_rib : M bool := gone FaCond ;; a_cond.
Definition fa_init (dbg : bool) : M bool :=
  ok try FaLock then
   ok try FaMtx then
    ok try FaCattr then
     ok try FaCond then
      gone FaCattr ;;
      ok rib_reg FaRib then
       ok dt_reg_comp dbg then yes orelse a_rib
      orelse a_rib
     orelse a_cond
    orelse a_cattr
   orelse a_mtx
  orelse a_rwlock.
Definition fa_fini : M unit := rib_unreg FaRib ;; gone FaCond ;; gone FaMtx ;; gone FaLock.
Definition a_psched : M bool := no.
Definition a_thread : M bool := gone FaPsched ;; a_psched.
Definition a_sched : M bool := join FaThr ;; a_thread.
Definition fa_start : M bool :=
  ok try FaPsched then
   ok try FaThr then
    ok ask then
     ok ask then
      ok ask then yes orelse a_sched
     orelse a_sched
    orelse a_sched
   orelse a_thread
  orelse a_psched.
Definition fa_stop : M unit := join FaThr ;; gone FaPsched.

(* dht_create: unicast/dir/dht.c:2811-2883 *)
Definition h_malloc : M bool := no.
Definition h_rwlock : M bool := gone DhtMem ;; h_malloc.
Definition h_mutex : M bool := gone DhtLock ;; h_rwlock.
Definition h_cond : M bool := gone DhtMtx ;; h_mutex.
Definition h_bmp : M bool := gone DhtCond ;; h_cond.
Definition h_tpm_create : M bool := gone DhtBmp ;; h_bmp.
Definition h_tpm_start : M bool := gone DhtTpm ;; h_tpm_create.
Definition h_notifier : M bool := join DhtRun ;; h_tpm_start.
Definition dht_create (dbg : bool) : M bool :=
  ok try DhtMem then
   ok try DhtLock then
    ok try DhtMtx then
     ok try DhtCond then
      ok try DhtBmp then
       ok try DhtTpm then
        ok try DhtRun then
         ok dt_reg_comp dbg then
          ok notifier_reg DhtNotif then
           set (fun v => View (v_rib v) (v_notif v) (v_comps v) (v_ids v) (v_named v) (v_en v) (v_cm v) false) ;; yes
          orelse h_notifier
         orelse h_tpm_start
        orelse h_tpm_start
       orelse h_tpm_create
      orelse h_bmp
     orelse h_cond
    orelse h_mutex
   orelse h_rwlock
  orelse h_malloc.
(* dht_destroy: 2652-2722 (the DHT of an IPCP that enrolled is not joined here, so state is RUNNING only after dht_bootstrap) *)
Definition dht_destroy : M unit :=
  join DhtRun ;; gone DhtTpm ;;
  do running <- get v_dht ;;
  (if running then join DhtThr ;; gone DhtBkt else ret tt) ;;
  gone DhtBmp ;; gone DhtMtx ;; gone DhtLock ;;
  (if running then gone DhtId else ret tt) ;;
  gone DhtMem.
(* dht_bootstrap: 2245-2296 *)
Definition dht_bootstrap : M bool :=
  ok try DhtId then
   ok try DhtBkt then
    ok try DhtThr then
     set (fun v => View (v_rib v) (v_notif v) (v_comps v) (v_ids v) (v_named v) (v_en v) (v_cm v) true) ;; yes
    orelse (gone DhtBkt ;; gone DhtId ;; no)
   orelse (gone DhtId ;; no)
  orelse no.
(* dir_init, dir_fini, dir_bootstrap: unicast/dir.c:50-73 *)
Definition dir_init (dbg : bool) : M bool := dht_create dbg.
Definition dir_fini : M unit := dht_destroy.
Definition dir_bootstrap : M bool := dht_bootstrap.

(* initialize_components: unicast/main.c:60-115 (flat_address, addr-auth/flat.c:68-79, never gives 0) *)
Definition i_addr : M bool := no.
Definition i_ca : M bool := gone AddrAuth ;; i_addr.
Definition i_dt : M bool := gone CaOps ;; i_ca.
Definition i_fa : M bool := dt_fini ;; i_dt.
Definition i_dir : M bool := fa_fini ;; i_fa.
Definition initialize_components (dbg : bool) : M bool :=
  ok try AddrAuth then
   ok try CaOps then
    ok dt_init then
     ok fa_init dbg then
      ok dir_init dbg then yes orelse i_dir
     orelse i_fa
    orelse i_dt
   orelse i_ca
  orelse i_addr.
(* finalize_components: 117-128 *)
Definition finalize_components : M unit := dir_fini ;; fa_fini ;; dt_fini ;; gone CaOps ;; gone AddrAuth.
(* start_components: 130-163 *)
Definition s_dt : M bool := no.
Definition s_fa : M bool := dt_stop ;; s_dt.
Definition s_enroll : M bool := fa_stop ;; s_fa.
Definition s_connmgr : M bool := enroll_stop ;; s_enroll.
Definition start_components : M bool :=
  ok dt_start then
   ok fa_start then
    ok enroll_start then
     ok connmgr_start then yes orelse s_connmgr
    orelse s_enroll
   orelse s_fa
  orelse s_dt.
(* stop_components: 165-176 *)
Definition stop_components : M unit := connmgr_stop ;; enroll_stop ;; fa_stop ;; dt_stop.
(* unicast_ipcp_bootstrap: 243-273 *)
Definition unicast_bootstrap (dbg : bool) : M bool :=
  ok initialize_components dbg then
   ok start_components then
    ok dir_bootstrap then yes orelse (stop_components ;; finalize_components ;; no)
   orelse (finalize_components ;; no)
  orelse no.
(* unicast_ipcp_enroll: 188-241; the answers of enroll_ack and connmgr_dealloc change nothing *)
Definition unicast_enroll (dbg : bool) : M bool :=
  ok ask then
   ok try EnFlow then
    ok ask then
     ok initialize_components dbg then
      ok start_components then (gone EnFlow ;; yes)
      orelse (finalize_components ;; gone EnFlow ;; no)
     orelse (gone EnFlow ;; no)
    orelse (gone EnFlow ;; no)
   orelse no
  orelse no.
Definition unicast_end : M unit := stop_components ;; finalize_components ;; main_end.

(* dt_init, dt_fini: broadcast/dt.c:246-294, 296-322 *)
Definition b_notifier : M bool := no.
Definition b_lock : M bool := notifier_unreg BNotif ;; b_notifier.
Definition b_fset : M bool := gone BLock ;; b_lock.
Definition b_reader : M bool := gone BSet ;; b_fset.
Definition b_listener : M bool := join BRd ;; b_reader.
Definition b_connmgr : M bool := join BLis ;; b_listener.
Definition bdt_init : M bool :=
  ok notifier_reg BNotif then
   ok try BLock then
    ok try BSet then
     ok try BRd then
      ok try BLis then
       ok connmgr_comp_init CDt then yes orelse b_connmgr
      orelse b_listener
     orelse b_reader
    orelse b_fset
   orelse b_lock
  orelse b_notifier.
Definition bdt_fini : M unit :=
  notifier_unreg BNotif ;; out (Cancel BRd) ;; out (Cancel BLis) ;; gone BRd ;; gone BLis ;; gone BSet ;; gone BLock.
(* start_components, stop_components: broadcast/main.c:79-98, 100-105 *)
Definition b_start : M bool :=
  ok enroll_start then
   ok connmgr_start then yes orelse (enroll_stop ;; no)
  orelse no.
Definition b_stop : M unit := connmgr_stop ;; enroll_stop.
(* broadcast_ipcp_bootstrap: 162-187 *)
Definition broadcast_bootstrap : M bool :=
  ok bdt_init then ok b_start then yes orelse (bdt_fini ;; no) orelse no.
(* broadcast_ipcp_enroll: 107-160 *)
Definition broadcast_enroll : M bool :=
  ok ask then
   ok try EnFlow then
    ok ask then
     ok bdt_init then
      ok b_start then (gone EnFlow ;; yes)
      orelse (bdt_fini ;; gone EnFlow ;; no)
     orelse (gone EnFlow ;; no)
    orelse (gone EnFlow ;; no)
   orelse no
  orelse no.
Definition broadcast_end : M unit := b_stop ;; bdt_fini ;; main_end.

(** Attempts to join a layer, one after the other (a command is executed only in
    state IPCP_INIT, ipcp.c:362, 391, to which a failed attempt returns); each with
    the answers to its calls.  The result is that of the last attempt; an attempt
    after a successful one is not made. *)
Inductive cmd := Boot | Enroll.
Definition unicast_cmd (dbg : bool) (c : cmd) : M bool := match c with Boot => unicast_bootstrap dbg | Enroll => unicast_enroll dbg end.
Definition broadcast_cmd (c : cmd) : M bool := match c with Boot => broadcast_bootstrap | Enroll => broadcast_enroll end.
Fixpoint attempts (f : cmd -> M bool) (l : list (cmd * list bool)) (v : view) : option (bool * view) * list ev :=
  match l with
  | [] => (Some (false, v), [])
  | (c, ans) :: t =>
      match run (f c v) ans with
      | (Some (false, v'), es, _) => let '(o, es') := attempts f t v' in (o, es ++ es')
      | (o, es, _) => (o, es)
      end
  end.
