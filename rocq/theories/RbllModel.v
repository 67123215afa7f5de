(** Model of the lockless ring of a flow, src/lib/shm_rbuff_ll.c, which
    src/lib/shm_rbuff.c:210-212 compiles instead of shm_rbuff_pthr.c when
    SHM_RBUFF_LOCKLESS is set.

    Threads interleave between any two accesses to the shared memory: every
    load, every store and every __sync operation is one step.  Simplifications:
    - memory is sequentially consistent (the plain loads and stores of head,
      tail and acl are not atomic in C);
    - head is loaded before tail in the two macros (C leaves the order open);
    - no thread dies holding the mutex (EOWNERDEAD is not modelled);
    - lines 142 and 145 call _sync_fetch_and_add, which does not exist (a
      program linked with this variant is incomplete); __sync_fetch_and_add is
      meant and modelled;
    - shm_rbuff_set_acl always succeeds (its exchange can fail when two
      processes set the word at once). *)

From Coq Require Import List NArith Bool.
Import ListNotations.
Open Scope N_scope.

(** include/ouroboros/shm_rbuff.h: access-control bits. *)
Definition RDONLY : N := 1.
Definition FLOWDOWN : N := 2.
Definition FLOWPEER : N := 4.
Definition has (a f : N) : bool := negb (N.land a f =? 0).

(** What a call returns. *)
Inductive out : Type :=
| Wrote (x : N)     (* 0 from a write of x *)
| Got (x : N)       (* an entry *)
| EAgain | EDown | EPeer | ENotAlloc | ETimedOut
| Abort.            (* a failed assertion *)

(** The calls; [tm] says if there is a deadline. *)
Inductive op : Type :=
| Write (x : N) | WriteB (x : N) (tm : bool) | Read | ReadB (tm : bool).

(** Which read: shm_rbuff_read itself, the first one in shm_rbuff_read_b, or
    the second one there, which holds the mutex. *)
Inductive mode : Type := Plain | First (tm : bool) | Locked.

(** Where a thread is: before the named access. *)
Inductive pc : Type :=
| Idle | Dead
(* shm_rbuff_write: acl (lines 54, 55, 57), free (61), empty (64), head (67),
   the store (69), the exchange (74), the broadcast (78) *)
| WA (x : N) | WB (x : N) | WC (x : N)
| WF (x : N) | WF2 (x h : N) | WE (x : N) | WE2 (x h : N)
| WH (x : N) (e : bool) | WS (x : N) (e : bool) (h : N) | WX (x : N) (e : bool) (o : N)
| WN (x : N)
(* shm_rbuff_write_b: the lock (94), acl (100, 101, 103), free (110), the
   wait (111), the mutex again, empty (118), the broadcast (119), the store
   (122), head (123), the unlock and the return of [r] *)
| BL (x : N) (tm : bool) | BA (x : N) (tm : bool) | BB (x : N) | BC (x : N)
| BF (x : N) (tm to : bool) | BF2 (x : N) (tm to : bool) (h : N)
| BW (x : N) (tm : bool) | BR (x : N) (tm to : bool)
| BE (x : N) (to : bool) | BE2 (x : N) (to : bool) (h : N) | BN (x : N) (to : bool)
| BS (x : N) | BS2 (x h : N) | BH (x : N) | BH2 (x h : N)
| BU (r : out)
(* shm_rbuff_read: empty (141), acl (142, 145), tail (151), the exchange
   (156), the broadcast (159), the entry (161) *)
| RE (m : mode) | RE2 (m : mode) (h : N) | RA (m : mode) | RB (m : mode)
| RT (m : mode) | RX (m : mode) (o : N) | RN (m : mode) (o : N) | RL (m : mode) (o : N)
(* shm_rbuff_read_b: the lock (177), empty (184), the wait (185), the mutex
   again, the unlock and the return of [r] *)
| QL (tm : bool) | QE (tm to : bool) | QE2 (tm to : bool) (h : N)
| QW (tm : bool) | QR (tm to : bool) | QU (r : out).

(** The shared memory, the mutex and the threads.  [pub] and [taken] are not
    in the code and nothing reads them: the values in the order in which head
    passed them, and how often tail moved. *)
Record st : Type := St {
  slot : N -> N; head : N; tail : N; acl : N; lock : option nat;
  pcs : nat -> pc; pub : list N; taken : N
}.

Definition upd {A} (f : nat -> A) (t : nat) (v : A) : nat -> A :=
  fun u => if Nat.eqb u t then v else f u.

Definition go (s : st) (t : nat) (p : pc) : st :=
  St (slot s) (head s) (tail s) (acl s) (lock s) (upd (pcs s) t p) (pub s) (taken s).
Definition with_lock (s : st) (l : option nat) : st :=
  St (slot s) (head s) (tail s) (acl s) l (pcs s) (pub s) (taken s).

Inductive ev : Type :=
| Call (t : nat) (o : op)   (* a thread enters a function *)
| Step (t : nat)            (* it makes its next access *)
| Timeout (t : nat)         (* its deadline passes while it waits *)
| Spurious (t : nat)        (* pthread_cond_wait returns without a broadcast *)
| SetAcl (v : N).           (* shm_rbuff_set_acl (lines 203-209): no broadcast *)

Section Ring.
Variable lg : N.
Definition size : N := 2 ^ lg.

(** shm_rbuff.c:53-56 on loaded values of head and tail. *)
Definition used (h t : N) : N := N.land (h + size - t) (size - 1).
Definition free (h t : N) : bool := used h t + 1 <? size.
Definition next (i : N) : N := N.land (i + 1) (size - 1).

(** pthread_cond_broadcast(rb->add): those who wait on [add] want the mutex
    again.  Nobody waits on [del] but shm_rbuff_fini, which is not modelled. *)
Definition woken (p : pc) : pc :=
  match p with BW x tm => BR x tm false | QW tm => QR tm false | p => p end.
Definition bcast_add (s : st) : st :=
  St (slot s) (head s) (tail s) (acl s) (lock s) (fun u => woken (pcs s u)) (pub s) (taken s).

(** How a read ends: lines 172-174 and 194-195. *)
Definition read_ends (s : st) (t : nat) (m : mode) (r : out) : st * option out :=
  match m with
  | Plain => (go s t Idle, Some r)
  | First tm => match r with
                | EAgain => (go s t (QL tm), None)
                | r => (go s t Idle, Some r)
                end
  | Locked => match r with
              | Got x => (go s t (QU (Got x)), None)
              | _ => (go s t Dead, Some Abort)
              end
  end.

(** One access of thread [t]; None: it cannot go on now. *)
Definition access (s : st) (t : nat) : option (st * option out) :=
  let k p := Some (go s t p, None) in
  match pcs s t with
  | Idle | Dead | BW _ _ | QW _ => None
  (* shm_rbuff_write, lines 44-81 *)
  | WA x => k (if acl s =? 0 then WF x else WB x)
  | WB x => if has (acl s) FLOWDOWN then Some (go s t Idle, Some EDown) else k (WC x)
  | WC x => if has (acl s) RDONLY then Some (go s t Idle, Some ENotAlloc) else k (WF x)
  | WF x => k (WF2 x (head s))
  | WF2 x h => if free h (tail s) then k (WE x) else Some (go s t Idle, Some EAgain)
  | WE x => k (WE2 x (head s))
  | WE2 x h => k (WH x (h =? tail s))
  | WH x e => k (WS x e (head s))
  | WS x e h => Some (St (fun i => if i =? h then x else slot s i) (head s) (tail s) (acl s)
                         (lock s) (upd (pcs s) t (WX x e h)) (pub s) (taken s), None)
  | WX x e o =>
      if head s =? o
      then let s' := St (slot s) (next o) (tail s) (acl s) (lock s) (pcs s) (pub s ++ [x]) (taken s) in
           if e then Some (go s' t (WN x), None) else Some (go s' t Idle, Some (Wrote x))
      else k (WX x e (head s))
  | WN x => Some (go (bcast_add s) t Idle, Some (Wrote x))
  (* shm_rbuff_write_b, lines 84-132 *)
  | BL x tm => match lock s with
               | None => Some (go (with_lock s (Some t)) t (BA x tm), None)
               | Some _ => None
               end
  | BA x tm => k (if acl s =? 0 then BF x tm false else BB x)
  | BB x => if has (acl s) FLOWDOWN then k (BU EDown) else k (BC x)
  | BC x => if has (acl s) RDONLY then k (BU ENotAlloc) else k (BU (Wrote x))
  | BF x tm to => k (BF2 x tm to (head s))
  | BF2 x tm to h =>
      if free h (tail s) then k (BE x to)
      else if to then k (BE x to)
      else Some (go (with_lock s None) t (BW x tm), None)
  | BR x tm to => match lock s with
                  | None => Some (go (with_lock s (Some t)) t (BF x tm to), None)
                  | Some _ => None
                  end
  | BE x to => k (BE2 x to (head s))
  | BE2 x to h => if h =? tail s then k (BN x to) else k (if to then BU ETimedOut else BS x)
  | BN x to => Some (go (bcast_add s) t (if to then BU ETimedOut else BS x), None)
  | BS x => k (BS2 x (head s))
  | BS2 x h => Some (St (fun i => if i =? h then x else slot s i) (head s) (tail s) (acl s)
                        (lock s) (upd (pcs s) t (BH x)) (pub s) (taken s), None)
  | BH x => k (BH2 x (head s))
  | BH2 x h => Some (St (slot s) (next h) (tail s) (acl s) (lock s)
                        (upd (pcs s) t (BU (Wrote x))) (pub s ++ [x]) (taken s), None)
  | BU r => Some (go (with_lock s None) t Idle, Some r)
  (* shm_rbuff_read, lines 134-162 *)
  | RE m => k (RE2 m (head s))
  | RE2 m h => if h =? tail s then k (RA m) else k (RT m)
  | RA m => if has (acl s) FLOWDOWN then Some (read_ends s t m EDown) else k (RB m)
  | RB m => if has (acl s) FLOWPEER then Some (read_ends s t m EPeer)
            else Some (read_ends s t m EAgain)
  | RT m => k (RX m (tail s))
  | RX m o => if tail s =? o
              then Some (St (slot s) (head s) (next o) (acl s) (lock s)
                            (upd (pcs s) t (RN m o)) (pub s) (taken s + 1), None)
              else k (RX m (tail s))
  | RN m o => k (RL m o)
  | RL m o => Some (read_ends s t m (Got (slot s o)))
  (* shm_rbuff_read_b, lines 164-201 *)
  | QL tm => match lock s with
             | None => Some (go (with_lock s (Some t)) t (QE tm false), None)
             | Some _ => None
             end
  | QE tm to => k (QE2 tm to (head s))
  | QE2 tm to h =>
      if to then k (QU ETimedOut)
      else if h =? tail s then Some (go (with_lock s None) t (QW tm), None)
      else k (RE Locked)
  | QR tm to => match lock s with
                | None => Some (go (with_lock s (Some t)) t (QE tm to), None)
                | Some _ => None
                end
  | QU r => Some (go (with_lock s None) t Idle, Some r)
  end.

Definition enter (o : op) : pc :=
  match o with
  | Write x => WA x | WriteB x tm => BL x tm
  | Read => RE Plain | ReadB tm => RE (First tm)
  end.

(** One event, with what the thread's call returns, if it returns. *)
Definition step (s : st) (e : ev) : option (st * option out) :=
  match e with
  | Call t o => match pcs s t with Idle => Some (go s t (enter o), None) | _ => None end
  | Step t => access s t
  | Timeout t => match pcs s t with
                 | BW x true => Some (go s t (BR x true true), None)
                 | QW true => Some (go s t (QR true true), None)
                 | _ => None
                 end
  | Spurious t => match pcs s t with
                  | BW x tm => Some (go s t (BR x tm false), None)
                  | QW tm => Some (go s t (QR tm false), None)
                  | _ => None
                  end
  | SetAcl v => Some (St (slot s) (head s) (tail s) v (lock s) (pcs s) (pub s) (taken s), None)
  end.

(** shm_rbuff.c:169-171; the memory is fresh. *)
Definition init : st := St (fun _ => 0) 0 0 0 None (fun _ => Idle) [] 0.

End Ring.
