(** Model of a flow's packet ring: src/lib/shm_rbuff.c and
    src/lib/shm_rbuff_pthr.c (the default, mutex-based implementation).

    Every operation runs under the ring's process-shared mutex, so the code
    between lock and unlock is one atomic step; a condition wait ends a step
    and each wake-up starts a new one.  The memory writes and broadcasts of an
    operation are kept as an ordered list of effects so that a process can die
    after any prefix of them. *)

From Coq Require Import List NArith Bool.
Import ListNotations.
Open Scope N_scope.

(** include/ouroboros/shm_rbuff.h: access-control bits. *)
Definition ACL_RDWR     : N := 0.
Definition ACL_RDONLY   : N := 1.
Definition ACL_FLOWDOWN : N := 2.
Definition ACL_FLOWPEER : N := 4.

(** Return codes (0 and the negated errno values used in the file). *)
Inductive rc : Type :=
| OK | EAGAIN | EFLOWDOWN | ENOTALLOC | EFLOWPEER | ETIMEDOUT | EOWNERDEAD.

Definition rc_eqb (a b : rc) : bool :=
  match a, b with
  | OK, OK | EAGAIN, EAGAIN | EFLOWDOWN, EFLOWDOWN | ENOTALLOC, ENOTALLOC
  | EFLOWPEER, EFLOWPEER | ETIMEDOUT, ETIMEDOUT | EOWNERDEAD, EOWNERDEAD => true
  | _, _ => false
  end.

(** shm_rbuff.c:60-70, struct shm_rbuff: the array of slots, head, tail, acl. *)
Record rbuff : Type := mk_rbuff {
  slot : N -> N;
  head : N;
  tail : N;
  acl  : N
}.

Section Ring.
  (** SHM_RBUFF_SIZE is 2^lg (1024 by default); the masks below require a
      power of two. *)
  Variable lg : N.
  Definition rb_size : N := 2 ^ lg.

  (** shm_rbuff.c:169-171, initial values in shm_rbuff_create.  The contents of
      the slots are whatever the fresh mapping holds (zeroes). *)
  Definition rb_init : rbuff := mk_rbuff (fun _ => 0) 0 0 ACL_RDWR.

  (** shm_rbuff.c:52-53, shm_rbuff_used. *)
  Definition rb_used (rb : rbuff) : N :=
    N.land (head rb + rb_size - tail rb) (rb_size - 1).

  (** shm_rbuff.c:54, shm_rbuff_free. *)
  Definition rb_free (rb : rbuff) : bool := rb_used rb + 1 <? rb_size.

  (** shm_rbuff.c:55, shm_rbuff_empty. *)
  Definition rb_empty (rb : rbuff) : bool := head rb =? tail rb.

  (** A bit test on the acl, [acl & flag]. *)
  Definition acl_has (rb : rbuff) (flag : N) : bool := negb (N.land (acl rb) flag =? 0).

  (** shm_rbuff_pthr.c:77, 127: the store of idx through head_el_ptr(rb). *)
  Definition store_head (idx : N) (rb : rbuff) : rbuff :=
    mk_rbuff (fun i => if i =? head rb then idx else slot rb i) (head rb) (tail rb) (acl rb).

  (** shm_rbuff_pthr.c:78, 128: head = (head + 1) & (SIZE - 1). *)
  Definition bump_head (rb : rbuff) : rbuff :=
    mk_rbuff (slot rb) (N.land (head rb + 1) (rb_size - 1)) (tail rb) (acl rb).

  (** shm_rbuff_pthr.c:172, 213: tail = (tail + 1) & (SIZE - 1). *)
  Definition bump_tail (rb : rbuff) : rbuff :=
    mk_rbuff (slot rb) (head rb) (N.land (tail rb + 1) (rb_size - 1)) (acl rb).

  (** shm_rbuff_pthr.c:237: acl = flags. *)
  Definition store_acl (flags : N) (rb : rbuff) : rbuff :=
    mk_rbuff (slot rb) (head rb) (tail rb) flags.

  (** ** Threads *)

  (** What a process is doing.  [SleepX] is inside pthread_cond_(timed)wait,
      [AwakeX w] has been woken and must reacquire the lock; [w] is the value
      the wait returns. *)
  Inductive wake : Type := WakeOk | WakeTimeout | WakeOwnerDead.

  Inductive tstate : Type :=
  | Idle
  | SleepW (call_acl idx : N) | AwakeW (call_acl idx : N) (w : wake)
  | SleepR | AwakeR (w : wake)
  | SleepF | AwakeF
  | Dead.

  Record sys : Type := mk_sys { rb : rbuff; thr : nat -> tstate }.

  Definition sys_init : sys := mk_sys rb_init (fun _ => Idle).

  Definition set_thr (s : sys) (t : nat) (x : tstate) : sys :=
    mk_sys (rb s) (fun u => if Nat.eqb u t then x else thr s u).

  (** pthread_cond_broadcast(rb->add): wakes the readers. *)
  Definition wake_add (x : tstate) : tstate :=
    match x with SleepR => AwakeR WakeOk | _ => x end.
  Definition bcast_add (s : sys) : sys := mk_sys (rb s) (fun u => wake_add (thr s u)).

  (** pthread_cond_broadcast(rb->del): wakes blocked writers and shm_rbuff_fini. *)
  Definition wake_del (x : tstate) : tstate :=
    match x with SleepW a i => AwakeW a i WakeOk | SleepF => AwakeF | _ => x end.
  Definition bcast_del (s : sys) : sys := mk_sys (rb s) (fun u => wake_del (thr s u)).

  Definition on_rb (f : rbuff -> rbuff) (s : sys) : sys := mk_sys (f (rb s)) (thr s).

  (** shm_rbuff_pthr.c:74-78 and 125-128: effects of a successful write, in
      program order. *)
  Definition write_effects (s : sys) (idx : N) : list (sys -> sys) :=
    (if rb_empty (rb s) then [bcast_add] else []) ++
    [on_rb (store_head idx); on_rb bump_head].

  (** shm_rbuff_pthr.c:172-173 and 213-214: effects of a successful read. *)
  Definition read_effects : list (sys -> sys) := [on_rb bump_tail; bcast_del].

  Definition apply_effects (l : list (sys -> sys)) (s : sys) : sys :=
    fold_left (fun s f => f s) l s.

  (** ** Operations *)

  (** Observable results of calls: which call, the acl the caller found when it
      called (writes), and the result. *)
  Inductive event : Type :=
  | EvWrite (t : nat) (call_acl idx : N) (r : rc)
  | EvRead (t : nat) (r : rc + N)
  | EvFini (t : nat)
  | EvQueued (t : nat) (n : N).

  (** shm_rbuff_pthr.c:61-67 and 104-110: the acl check of both writes.
      [None] means go on; note that an acl other than RDWR without FLOWDOWN and
      RDONLY gives return value 0. *)
  Definition write_acl_check (rb : rbuff) : option rc :=
    if acl rb =? ACL_RDWR then None
    else if acl_has rb ACL_FLOWDOWN then Some EFLOWDOWN
    else if acl_has rb ACL_RDONLY then Some ENOTALLOC
    else Some OK.

  (** shm_rbuff_pthr.c:46-86, shm_rbuff_write. *)
  Definition do_write (s : sys) (t : nat) (idx : N) : sys * list event :=
    match write_acl_check (rb s) with
    | Some r => (s, [EvWrite t (acl (rb s)) idx r])
    | None =>
        if negb (rb_free (rb s)) then (s, [EvWrite t (acl (rb s)) idx EAGAIN])
        else (apply_effects (write_effects s idx) s, [EvWrite t (acl (rb s)) idx OK])
    end.

  (** The value of [ret] in shm_rbuff_write_b: 0 or the negated wait result. *)
  Definition wake_rc (w : wake) : rc :=
    match w with WakeOk => OK | WakeTimeout => ETIMEDOUT | WakeOwnerDead => EOWNERDEAD end.

  (** shm_rbuff_pthr.c:114-133: the wait loop of shm_rbuff_write_b evaluated
      with the current [ret], and what follows it. *)
  Definition write_b_loop (s : sys) (t : nat) (a idx : N) (ret : rc) : sys * list event :=
    if negb (rb_free (rb s)) && negb (rc_eqb ret ETIMEDOUT)
       && negb (acl_has (rb s) ACL_FLOWDOWN)
    then (set_thr s t (SleepW a idx), [])
    else if negb (rc_eqb ret ETIMEDOUT)
    then (set_thr (apply_effects (write_effects s idx) s) t Idle, [EvWrite t a idx ret])
    else (set_thr s t Idle, [EvWrite t a idx ret]).

  (** shm_rbuff_pthr.c:88-113, entry of shm_rbuff_write_b. *)
  Definition do_write_b (s : sys) (t : nat) (idx : N) : sys * list event :=
    match write_acl_check (rb s) with
    | Some r => (s, [EvWrite t (acl (rb s)) idx r])
    | None => write_b_loop s t (acl (rb s)) idx OK
    end.

  (** shm_rbuff_pthr.c:139-150, check_rb_acl. *)
  Definition check_rb_acl (rb : rbuff) : rc :=
    if acl_has rb ACL_FLOWDOWN then EFLOWDOWN
    else if acl_has rb ACL_FLOWPEER then EFLOWPEER
    else EAGAIN.

  (** shm_rbuff_pthr.c:152-178, shm_rbuff_read. *)
  Definition do_read (s : sys) (t : nat) : sys * list event :=
    if rb_empty (rb s) then (s, [EvRead t (inl (check_rb_acl (rb s)))])
    else (apply_effects read_effects s, [EvRead t (inr (slot (rb s) (tail (rb s))))]).

  (** shm_rbuff_pthr.c:201-223: the wait loop of shm_rbuff_read_b; [idx] holds
      -1 at first ([None]) and then the negated wait result.  The [assert] on
      line 221 is checked by the theorem [read_b_never_eagain]. *)
  Definition read_b_loop (s : sys) (t : nat) (w : option wake) : sys * list event :=
    let timed_out := match w with Some WakeTimeout => true | _ => false end in
    if rb_empty (rb s) && negb timed_out && rc_eqb (check_rb_acl (rb s)) EAGAIN
    then (set_thr s t SleepR, [])
    else if negb (rb_empty (rb s))
    then (set_thr (apply_effects read_effects s) t Idle,
          [EvRead t (inr (slot (rb s) (tail (rb s))))])
    else if negb timed_out
    then (set_thr s t Idle, [EvRead t (inl (check_rb_acl (rb s)))])
    else (set_thr s t Idle, [EvRead t (inl ETIMEDOUT)]).

  (** shm_rbuff_pthr.c:180-199, entry of shm_rbuff_read_b. *)
  Definition do_read_b (s : sys) (t : nat) : sys * list event :=
    if rb_empty (rb s) && acl_has (rb s) ACL_FLOWDOWN
    then (s, [EvRead t (inl EFLOWDOWN)])
    else read_b_loop s t None.

  (** shm_rbuff_pthr.c:226-243, shm_rbuff_set_acl. *)
  Definition do_set_acl (s : sys) (flags : N) : sys * list event :=
    (bcast_add (bcast_del (on_rb (store_acl flags) s)), []).

  (** shm_rbuff_pthr.c:264-284, shm_rbuff_fini (also after each wake-up). *)
  Definition do_fini (s : sys) (t : nat) : sys * list event :=
    if negb (rb_empty (rb s)) then (set_thr s t SleepF, [])
    else (set_thr s t Idle, [EvFini t]).

  (** shm_rbuff_pthr.c:286-304, shm_rbuff_queued. *)
  Definition do_queued (s : sys) (t : nat) : sys * list event :=
    (s, [EvQueued t (rb_used (rb s))]).

  (** ** Schedules *)

  Inductive label : Type :=
  | LWrite (t : nat) (idx : N) | LWriteB (t : nat) (idx : N)
  | LRead (t : nat) | LReadB (t : nat)
  | LSetAcl (flags : N) | LQueued (t : nat) | LFini (t : nat)
  | LWake (t : nat) (w : wake)      (* spurious wake-up, time-out, owner death *)
  | LResume (t : nat)               (* a woken thread gets the lock *)
  | LDieWrite (t : nat) (idx : N) (n : nat)  (* dies in write after n effects *)
  | LDieRead (t : nat) (n : nat).            (* dies in read after n effects *)

  (** One step of the system; [None] when the label is not enabled. *)
  Definition step (s : sys) (l : label) : option (sys * list event) :=
    match l with
    | LWrite t idx => match thr s t with Idle => Some (do_write s t idx) | _ => None end
    | LWriteB t idx => match thr s t with Idle => Some (do_write_b s t idx) | _ => None end
    | LRead t => match thr s t with Idle => Some (do_read s t) | _ => None end
    | LReadB t => match thr s t with Idle => Some (do_read_b s t) | _ => None end
    | LSetAcl f => Some (do_set_acl s f)
    | LQueued t => match thr s t with Idle => Some (do_queued s t) | _ => None end
    | LFini t => match thr s t with Idle => Some (do_fini s t) | _ => None end
    | LWake t w =>
        match thr s t with
        | SleepW a i => Some (set_thr s t (AwakeW a i w), [])
        | SleepR => Some (set_thr s t (AwakeR w), [])
        | SleepF => match w with WakeTimeout => None | _ => Some (set_thr s t AwakeF, []) end
        | _ => None
        end
    | LResume t =>
        match thr s t with
        | AwakeW a i w => Some (write_b_loop s t a i (wake_rc w))
        | AwakeR w => Some (read_b_loop s t (Some w))
        | AwakeF => Some (do_fini s t)
        | _ => None
        end
    | LDieWrite t idx n =>
        match thr s t, write_acl_check (rb s) with
        | Idle, None =>
            if rb_free (rb s)
            then Some (set_thr (apply_effects (firstn n (write_effects s idx)) s) t Dead, [])
            else None
        | _, _ => None
        end
    | LDieRead t n =>
        match thr s t with
        | Idle =>
            if rb_empty (rb s) then None
            else Some (set_thr (apply_effects (firstn n read_effects) s) t Dead, [])
        | _ => None
        end
    end.

  (** Executions: a schedule, the state it leads to and the events, oldest
      first. *)
  Inductive exec (ok : sys -> label -> Prop) : sys -> list event -> Prop :=
  | exec_init : exec ok sys_init []
  | exec_step s evs l s' es :
      exec ok s evs -> ok s l -> step s l = Some (s', es) -> exec ok s' (evs ++ es).
End Ring.
