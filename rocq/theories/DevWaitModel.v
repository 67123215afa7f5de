(* Waiting for the flow of a flow id: flow_wait_assign, flow_set_state and
   flow_destroy (src/lib/dev.c:148-225) and np1_flow_resp (1773-1787), for
   one flow id.  The condition variable is shared by all ids, so a waiter may
   be woken at any time; the model lets it.  Each section under ai.mtx or
   ai.lock is one step. *)
From Coq Require Import List ZArith Bool Arith.
Import ListNotations.

(* flow.h:30-39, the states this code uses. *)
Inductive fstate : Type := INIT | ALLOC_PENDING | ALLOCATED | DESTROY | NULLST.

Definition fstate_eqb (x y : fstate) : bool :=
  match x, y with
  | INIT, INIT | ALLOC_PENDING, ALLOC_PENDING | ALLOCATED, ALLOCATED
  | DESTROY, DESTROY | NULLST, NULLST => true
  | _, _ => false
  end.

(* A thread in np1_flow_resp: in the wait loop, or about to read the
   descriptor; a thread in flow_destroy waiting for the waiter to give up. *)
Inductive pc : Type := InWait | ReadFd | InDestroy.

(* dev.c:82-86 struct fmap and the threads that use it; the fd is not
   initialised before the first flow (None). *)
Record fmap : Type := Fmap {
  fd : option Z;
  st : fstate;
  thr : list (nat * pc)
}.

Definition fmap_init : fmap := Fmap None INIT [].

Inductive out : Type :=
| Resp (t : nat) (fd : Z)  (* np1_flow_resp returned: a descriptor or -1 *)
| Nothing
| Abort.                   (* a failed assertion or an uninitialised read *)

Inductive event : Type :=
| Call (t : nat)        (* np1_flow_resp starts *)
| Wake (t : nat)        (* the waiter runs again *)
| Read (t : nat)        (* it reads the descriptor *)
| FlowInit (d : Z)      (* flow_init succeeds with descriptor d: dev.c:515-517 *)
| FlowFini (t : nat)    (* __flow_fini calls flow_destroy *)
| WakeD (t : nat).      (* the thread in flow_destroy runs again *)

Fixpoint find (l : list (nat * pc)) (t : nat) : option pc :=
  match l with
  | [] => None
  | (u, p) :: l' => if Nat.eqb u t then Some p else find l' t
  end.

Definition del (l : list (nat * pc)) (t : nat) : list (nat * pc) :=
  filter (fun q => negb (Nat.eqb (fst q) t)) l.

Definition put (l : list (nat * pc)) (t : nat) (p : pc) : list (nat * pc) := (t, p) :: del l t.

(* dev.c:213-222: leaving the loop, and np1_flow_resp up to the lock. *)
Definition wait_leave (m : fmap) (t : nat) : fmap * out :=
  let s := if fstate_eqb (st m) DESTROY then NULLST else st m in
  let m := Fmap (fd m) s (thr m) in
  if fstate_eqb s INIT then (m, Abort)
  else if fstate_eqb s ALLOCATED then (Fmap (fd m) s (put (thr m) t ReadFd), Nothing)
  else (Fmap (fd m) s (del (thr m) t), Resp t (-1)).

(* dev.c:210-211: the loop. *)
Definition wait_loop (m : fmap) (t : nat) : fmap * out :=
  if fstate_eqb (st m) ALLOC_PENDING then (Fmap (fd m) (st m) (put (thr m) t InWait), Nothing)
  else wait_leave m t.

(* dev.c:190-207. *)
Definition wait_begin (m : fmap) (t : nat) : fmap * out :=
  if fstate_eqb (st m) ALLOCATED then (Fmap (fd m) (st m) (put (thr m) t ReadFd), Nothing)
  else wait_loop (if fstate_eqb (st m) INIT then Fmap (fd m) ALLOC_PENDING (thr m) else m) t.

(* dev.c:1780-1786. *)
Definition read_fd (m : fmap) (t : nat) : fmap * out :=
  match fd m with
  | Some d => (Fmap (fd m) (st m) (del (thr m) t), Resp t d)
  | None => (m, Abort)
  end.

(* dev.c:165-169: the end of flow_destroy. *)
Definition destroy_loop (m : fmap) (t : nat) : fmap * out :=
  if fstate_eqb (st m) NULLST then (Fmap (Some (-1)%Z) INIT (del (thr m) t), Nothing)
  else (Fmap (fd m) (st m) (put (thr m) t InDestroy), Nothing).

(* dev.c:148-163. *)
Definition destroy_begin (m : fmap) (t : nat) : fmap * out :=
  if fstate_eqb (st m) DESTROY then (m, Nothing)
  else destroy_loop (Fmap (fd m) (if fstate_eqb (st m) ALLOC_PENDING then DESTROY else NULLST) (thr m)) t.

(* dev.c:173-187 with dev.c:515: the descriptor is stored first. *)
Definition assign (m : fmap) (d : Z) : fmap :=
  Fmap (Some d) (if fstate_eqb (st m) DESTROY then DESTROY else ALLOCATED) (thr m).

Definition step (m : fmap) (e : event) : fmap * out :=
  match e with
  | Call t => match find (thr m) t with None => wait_begin m t | _ => (m, Nothing) end
  | Wake t => match find (thr m) t with Some InWait => wait_loop m t | _ => (m, Nothing) end
  | Read t => match find (thr m) t with Some ReadFd => read_fd m t | _ => (m, Nothing) end
  | FlowInit d => (assign m d, Nothing)
  | FlowFini t => match find (thr m) t with None => destroy_begin m t | _ => (m, Nothing) end
  | WakeD t => match find (thr m) t with Some InDestroy => destroy_loop m t | _ => (m, Nothing) end
  end.

(* A history; nothing happens after an abort. *)
Fixpoint run (m : fmap) (l : list event) : fmap * list out :=
  match l with
  | [] => (m, [])
  | e :: l' =>
      let (m1, o) := step m e in
      match o with
      | Abort => (m1, [Abort])
      | _ => let (m2, os) := run m1 l' in (m2, o :: os)
      end
  end.
