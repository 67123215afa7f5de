(** That there is one IRMd on a machine: the lock file of src/lib/lockfile.c, the
    way the IRMd takes it when it starts (irm_init, src/irmd/main.c:1734-1763)
    and leaves it when it ends (irm_fini, 1613-1645), and the pool of packets
    (shm_rdrbuff_create, _destroy and _purge of src/lib/shm_rdrbuff.c:132-279),
    which it makes while it has the lock.

    Any number of processes run, and may be killed between any two steps.  One
    system call, or one access to the file, is one step.

    Simplifications: malloc, ftruncate, mmap and the initialisations between
    taking the lock and making the pool fail only where that is an event (Fail);
    an IRMd is root, so kill fails only if there is no such process; mmap is one
    step with shm_open; lockfile_destroy reads the pid and asks for the process in
    one step; a process that refuses to start is gone at once; the sockets and the
    mount point of the RIB are left out. *)
From Coq Require Import List Bool Arith.
Import ListNotations.

(** Where a process of the IRMd is; the number is the file it has mapped. *)
Inductive pc :=
| Create1                 (* main.c:1734, lockfile.c:84-86, 54: shm_open, O_EXCL *)
| Trunc (i : nat)         (* lockfile.c:58 *)
| WritePid (i : nat)      (* lockfile.c:90-92 *)
| Open                    (* main.c:1736, lockfile.c:54 *)
| Read (i : nat)          (* main.c:1742: lockfile_owner *)
| Probe (i v : nat)       (* main.c:1742: kill *)
| Purge (i : nat)         (* main.c:1675 *)
| Recheck (i : nat)       (* lockfile.c:115 *)
| Unlink                  (* lockfile.c:120 *)
| Create2                 (* main.c:1751 *)
| MkPool (i : nat)        (* main.c:1811 *)
| Run (i : nat)
| RmPool (i : nat)        (* main.c:1630 *)
| RmLock (i : nat)        (* main.c:1633 *)
| Ending.
(** [asked]: the umask the IRMd was started with; [cur]: the one it has; [saved]:
    the variable of lockfile_create *)
Inductive proc := Absent | Other | Irm (asked cur saved : nat) (at_ : pc).

(** [name]: the file SHM_LOCKFILE_NAME names; [cell]: what is in a file, None
    before it has a size; [pool]: who made the pool that SHM_RDRB_NAME names *)
Record world := World { name : option nat; cell : nat -> option nat; fresh : nat; pool : option nat; procs : nat -> proc }.
Definition boot : world := World None (fun _ => None) 0 None (fun _ => Absent).

Definition upd {A} (f : nat -> A) (k : nat) (a : A) : nat -> A := fun x => if Nat.eqb x k then a else f x.
Definition set_proc (w : world) (p : nat) (x : proc) : world := World (name w) (cell w) (fresh w) (pool w) (upd (procs w) p x).
Definition set_name (w : world) (n : option nat) : world := World n (cell w) (fresh w) (pool w) (procs w).
Definition set_cell (w : world) (i v : nat) : world := World (name w) (upd (cell w) i (Some v)) (fresh w) (pool w) (procs w).
Definition set_pool (w : world) (x : option nat) : world := World (name w) (cell w) (fresh w) x (procs w).
Definition alive (w : world) (p : nat) : bool := match procs w p with Absent => false | _ => true end.
(* a new file *)
Definition create (w : world) : world := World (Some (fresh w)) (cell w) (S (fresh w)) (pool w) (procs w).

(** The next step of the IRMd with pid p: the new world. *)
Definition step_irm (w : world) (p : nat) (o u s : nat) (c : pc) : option world :=
  match c with
  (* umask(0) comes first, and is not undone if the file is there *)
  | Create1 =>
      Some (match name w with
            | None => set_proc (create w) p (Irm o 0 u (Trunc (fresh w)))
            | Some _ => set_proc w p (Irm o 0 u Open)
            end)
  | Trunc i => Some (set_proc (set_cell w i 0) p (Irm o u s (WritePid i)))
  | WritePid i => Some (set_proc (set_cell w i p) p (Irm o s s (MkPool i)))
  | Open =>
      Some (set_proc w p (match name w with None => Absent | Some i => Irm o u s (Read i) end))
  (* a file without a size: SIGBUS *)
  | Read i =>
      Some (set_proc w p (match cell w i with None => Absent | Some v => Irm o u s (Probe i v) end))
  (* kill(0, 0) is the own process group *)
  | Probe i v =>
      Some (set_proc w p (if Nat.eqb v 0 || alive w v then Absent else Irm o u s (Purge i)))
  | Purge i => Some (set_proc (set_pool w None) p (Irm o u s (Recheck i)))
  | Recheck i =>
      Some (set_proc w p
        (match cell w i with
         | None => Absent
         | Some v => Irm o u s (if negb (Nat.eqb p v) && (Nat.eqb v 0 || alive w v) then Create2 else Unlink)
         end))
  | Unlink => Some (set_proc (set_name w None) p (Irm o u s Create2))
  | Create2 =>
      Some (match name w with
            | None => set_proc (create w) p (Irm o 0 u (Trunc (fresh w)))
            | Some _ => set_proc w p Absent
            end)
  (* main.c:1811-1814, 1856-1869 *)
  | MkPool i =>
      Some (match pool w with
            | None => set_proc (set_pool w (Some p)) p (Irm o u s (Run i))
            | Some _ => set_proc w p (Irm o u s (RmLock i))
            end)
  | Run i => None
  | RmPool i => Some (set_proc (set_pool w None) p (Irm o u s (RmLock i)))
  | RmLock i => Some (set_proc (set_name w None) p (Irm o u s Ending))
  | Ending => Some (set_proc w p Absent)
  end.

Inductive event :=
| Start (p mask : nat)    (* an IRMd is started, with this pid and umask *)
| Begin (p : nat)         (* another process gets this pid *)
| Step (p : nat)
| Fail (p : nat)          (* main.c:1765-1809 fails *)
| Stop (p : nat)          (* a running IRMd is told to end *)
| Die (p : nat).          (* a process is killed, or another process ends *)

Definition step (e : event) (w : world) : option world :=
  match e with
  | Start p m =>
      match p, procs w p with S _, Absent => Some (set_proc w p (Irm m m m Create1)) | _, _ => None end
  | Begin p => match p, procs w p with S _, Absent => Some (set_proc w p Other) | _, _ => None end
  | Step p => match procs w p with Irm o u s c => step_irm w p o u s c | _ => None end
  | Fail p => match procs w p with Irm o u s (MkPool i) => Some (set_proc w p (Irm o u s (RmLock i))) | _ => None end
  | Stop p => match procs w p with Irm o u s (Run i) => Some (set_proc w p (Irm o u s (RmPool i))) | _ => None end
  | Die p => match procs w p with Absent => None | _ => Some (set_proc w p Absent) end
  end.
Fixpoint run (es : list event) (w : world) : option world :=
  match es with
  | [] => Some w
  | e :: es => match step e w with Some w' => run es w' | None => None end
  end.
