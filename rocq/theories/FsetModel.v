(* Flow sets in shared memory: src/lib/shm_flow_set.c.  Each process has one;
   other processes notify it of events on its flows.  All operations hold
   the lock of the set.  The set has PROG_MAX_FQUEUES queues of
   SHM_BUFFER_SIZE events, one after the other in memory, followed by the
   lock. *)
From Coq Require Import ZArith List Bool.
Import ListNotations.
Open Scope Z_scope.

(* include/ouroboros/shm_flow_set.h: struct flowevent. *)
Notation fevt := (Z * Z)%type.   (* flow_id, event *)

(* config.h *)
Definition SHM_BUFFER_SIZE : Z := 16384.
Definition PROG_MAX_FQUEUES : Z := 32.
Definition SYS_MAX_FLOWS : Z := 10240.

(* shm_flow_set.c:67-75 struct shm_flow_set: mtable by flow id, heads by
   queue, the events by their place in memory. *)
Record fset : Type := Fset { mtable : Z -> Z; heads : Z -> Z; fqueues : Z -> fevt }.

Definition upd {X} (f : Z -> X) (k : Z) (v : X) : Z -> X := fun i => if i =? k then v else f i.

Inductive res (X : Type) : Type := Ok (x : X) | UB.
Arguments Ok {X}. Arguments UB {X}.

(* shm_flow_set.c:123-187: heads are 0, no flow is in a set; the file is
   zeroed. *)
Definition fset_create : fset := Fset (fun _ => -1) (fun _ => 0) (fun _ => (0, 0)).

(* fqueue_ptr(fs, idx), shm_flow_set.c:65 *)
Definition fqueue_ptr (idx : Z) : Z := SHM_BUFFER_SIZE * idx.
(* Where the events end and the lock begins, shm_flow_set.c:109-111. *)
Definition fqueues_end : Z := PROG_MAX_FQUEUES * SHM_BUFFER_SIZE.

Definition valid_idx (idx : Z) : bool := (0 <=? idx) && (idx <? PROG_MAX_FQUEUES).
Definition valid_id (id : Z) : bool := (0 <=? id) && (id <? SYS_MAX_FLOWS).

(* shm_flow_set.c:218-236 shm_flow_set_zero *)
Definition fset_zero (s : fset) (idx : Z) : res fset :=
  if valid_idx idx then
    Ok (Fset (fun i => if mtable s i =? idx then -1 else mtable s i) (upd (heads s) idx 0) (fqueues s))
  else UB.

(* shm_flow_set.c:238-258 shm_flow_set_add: whether it was added (0) or not
   (-EPERM). *)
Definition fset_add (s : fset) (idx id : Z) : res (fset * bool) :=
  if valid_id id && valid_idx idx then
    if negb (mtable s id =? -1) then Ok (s, false)
    else Ok (Fset (upd (mtable s) id idx) (heads s) (fqueues s), true)
  else UB.

(* shm_flow_set.c:260-274 shm_flow_set_del *)
Definition fset_del (s : fset) (idx id : Z) : res fset :=
  if valid_id id && valid_idx idx then
    if mtable s id =? idx then Ok (Fset (upd (mtable s) id (-1)) (heads s) (fqueues s)) else Ok s
  else UB.

(* shm_flow_set.c:276-294 shm_flow_set_has *)
Definition fset_has (s : fset) (idx id : Z) : res bool :=
  if valid_id id && valid_idx idx then Ok (mtable s id =? idx) else UB.

(* shm_flow_set.c:296-323 shm_flow_set_notify: a store at or beyond the end
   of the events falls on the lock or outside the memory. *)
Definition fset_notify (s : fset) (id ev : Z) : res fset :=
  if valid_id id then
    let m := mtable s id in
    if m =? -1 then Ok s
    else
      let e := fqueue_ptr m + heads s m in
      if fqueues_end <=? e then UB
      else Ok (Fset (mtable s) (upd (heads s) m (heads s m + 1)) (upd (fqueues s) e (id, ev)))
  else UB.

Fixpoint copy (mem : Z -> fevt) (from : Z) (n : nat) : list fevt :=
  match n with O => [] | S n' => mem from :: copy mem (from + 1) n' end.

(* shm_flow_set.c:326-371 shm_flow_set_wait: the events that are copied to
   the caller's fqueue of SHM_BUFFER_SIZE events (dev.c:122-126); None if it
   has to wait or times out. *)
Definition fset_wait (s : fset) (idx : Z) : res (fset * option (list fevt)) :=
  if valid_idx idx then
    if heads s idx =? 0 then Ok (s, None)
    else if SHM_BUFFER_SIZE <? heads s idx then UB
    else Ok (Fset (mtable s) (upd (heads s) idx 0) (fqueues s),
             Some (copy (fqueues s) (fqueue_ptr idx) (Z.to_nat (heads s idx))))
  else UB.

(* Any of the calls, with what it returns. *)
Inductive call : Type :=
  Zero (idx : Z) | Add (idx id : Z) | Del (idx id : Z) | Has (idx id : Z)
| Notify (id ev : Z) | Wait (idx : Z).
Inductive answer : Type := Done | Added (ok : bool) | HasIt (b : bool) | Events (o : option (list fevt)).

Definition fset_call (s : fset) (c : call) : res (fset * answer) :=
  match c with
  | Zero idx => match fset_zero s idx with Ok s' => Ok (s', Done) | UB => UB end
  | Add idx id => match fset_add s idx id with Ok (s', b) => Ok (s', Added b) | UB => UB end
  | Del idx id => match fset_del s idx id with Ok s' => Ok (s', Done) | UB => UB end
  | Has idx id => match fset_has s idx id with Ok b => Ok (s, HasIt b) | UB => UB end
  | Notify id ev => match fset_notify s id ev with Ok s' => Ok (s', Done) | UB => UB end
  | Wait idx => match fset_wait s idx with Ok (s', o) => Ok (s', Events o) | UB => UB end
  end.

Fixpoint fset_run (s : fset) (l : list call) : res (fset * list answer) :=
  match l with
  | [] => Ok (s, [])
  | c :: l' =>
      match fset_call s c with
      | UB => UB
      | Ok (s1, a) => match fset_run s1 l' with UB => UB | Ok (s2, r) => Ok (s2, a :: r) end
      end
  end.
