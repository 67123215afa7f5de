(** Which flow owns which endpoint id, as seen from outside: the list of
    (id, flow descriptor) of the open flows. *)
From Coq Require Import List NArith ZArith Bool.
From Verif Require Import FaModel.
Import ListNotations.
Open Scope N_scope.

Definition live := list (N * N).
Definition owner (l : live) (eid : N) : option N :=
  option_map snd (find (fun p => fst p =? eid) l).
Definition close (l : live) (fd : N) : live := filter (fun p => negb (snd p =? fd)) l.
(** A new flow gets the id made of a random number and its descriptor, or none if
    there is no randomness. *)
Definition open (l : live) (fd : N) (rnd : option N) : live :=
  match rnd with
  | Some r => (r * 2 ^ 32 + fd, fd) :: close l fd
  | None => close l fd
  end.

Definition to_owner (l : live) (eid : N) : outcome :=
  match owner l eid with Some fd => OFlow fd | None => ORejected end.

Definition spec_step (l : live) (o : op) : live * outcome :=
  match o with
  | Alloc fd rnd _ sent => (if sent then open l fd rnd else l, ONone)
  | Req fd rnd _ _ => (open l fd rnd, ONone)
  | Reply re _ response =>
      (match owner l re with
       | Some fd => if (response <? 0)%Z then close l fd else l
       | None => l
       end, to_owner l re)
  | Update re _ => (l, to_owner l re)
  | Resp fd response waited sent =>
      (if waited && (negb sent || (response <? 0)%Z) then close l fd else l, ONone)
  | Dealloc fd fini => (if fini then close l fd else l, ONone)
  | Rcv eid _ => (l, to_owner l eid)
  end.

Fixpoint spec_run (l : live) (ops : list op) : list outcome :=
  match ops with
  | [] => []
  | o :: t => let '(l1, r) := spec_step l o in r :: spec_run l1 t
  end.

(** What the environment guarantees: descriptors come from the library (64 to
    4095), random numbers have 32 bits and ids on the wire 64.  [zero_ok] allows
    messages naming endpoint 0. *)
Definition rnd_ok (r : option N) : Prop := match r with Some x => x < 2 ^ 32 | None => True end.
Definition fd_ok (fd : N) : Prop := 64 <= fd < 4096.
Definition op_ok (o : op) : Prop :=
  match o with
  | Alloc fd rnd _ _ | Req fd rnd _ _ => fd_ok fd /\ rnd_ok rnd
  | Reply re _ _ | Update re _ => re < 2 ^ 64
  | Resp fd _ _ _ | Dealloc fd _ => fd_ok fd
  | Rcv eid _ => 64 <= eid < 2 ^ 64       (* dt.c:512: fa_np1_rcv is only called for these *)
  end.
Definition names_zero (o : op) : Prop :=
  match o with Reply re _ _ | Update re _ => re = 0 | _ => False end.
