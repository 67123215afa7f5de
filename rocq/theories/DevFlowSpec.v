(* What a program relies on when it uses flow descriptors, as a judgement on
   the calls it makes and the results it gets.  Nothing here refers to the
   tables of the library. *)
From Coq Require Import List ZArith NArith Bool.
From Verif Require Import DevFlowModel.
Import ListNotations.
Open Scope Z_scope.

(* [live]: the descriptors that were given out and not given back, each with
   the id of its flow and whether the flow is delivered in order.
   [pending]: the threads inside flow_dealloc.  [known]: ids that this process
   ever had a flow for.  [dirty]: some allocation failed half-way.  [gone]: the
   process has exited. *)
Record view : Type := View {
  live : list (Z * (Z * bool));
  pending : list (nat * Z);
  known : list Z;
  dirty : bool;
  gone : bool
}.

Definition view0 : view := View [] [] [] false false.

Fixpoint owner (l : list (Z * (Z * bool))) (fd : Z) : option (Z * bool) :=
  match l with
  | [] => None
  | (x, v) :: l' => if x =? fd then Some v else owner l' fd
  end.

Fixpoint holder (l : list (Z * (Z * bool))) (id : Z) : option Z :=
  match l with
  | [] => None
  | (fd, (i, _)) :: l' => if i =? id then Some fd else holder l' id
  end.

Definition drop (l : list (Z * (Z * bool))) (fd : Z) :=
  filter (fun p => negb (fst p =? fd)) l.

(* Whether flow_init meets a failure. *)
Definition fails (in_order : bool) (f : fail) : bool :=
  match f with
  | NoFail => false
  | FailFrct | FailAdd => in_order
  | _ => true
  end.

Definition in_range (fd : Z) : bool := (0 <=? fd) && (fd <? 4096).

(* The capacity of a process: 4096 descriptors of which 64 are reserved. *)
Definition full (v : view) : bool := Z.of_nat (length (live v)) =? 4032.

(* The answer every call on a descriptor has to give. *)
Definition answer (v : view) (fd : Z) (bad : result) : result :=
  if in_range fd
  then match owner (live v) fd with Some (id, _) => RFlow id | None => ENOTALLOC end
  else bad.

Definition result_eqb (x y : result) : bool :=
  match x, y with
  | RFd a, RFd b => a =? b
  | RFlow a, RFlow b => a =? b
  | RPending, RPending | EBADF, EBADF | EINVAL, EINVAL | ENOTALLOC, ENOTALLOC
  | ENOMEM, ENOMEM | EIRMD, EIRMD => true
  | _, _ => false
  end.

Definition when (b : bool) (v : view) : option view := if b then Some v else None.

(* The result [r] of the call [e] is one that a program may see; the view
   afterwards. *)
Definition accept (v : view) (e : event) (r : result) : option view :=
  match e with
  | Alloc id o f =>
      match r with
      | RFd fd =>
          (* a descriptor that is not in use and not reserved *)
          when (negb (fails o f) && (64 <=? fd) && (fd <? 4096)
                && match owner (live v) fd with None => true | Some _ => false end)
               (View ((fd, (id, o)) :: live v) (pending v) (id :: known v) (dirty v) (gone v))
      | EBADF => when (full v) v
      | ENOMEM => when (fails o f) (View (live v) (pending v) (known v) true (gone v))
      | _ => None
      end
  | Use fd => when (result_eqb r (answer v fd EBADF)) v
  | Cntl fd => when (result_eqb r (answer v fd EBADF)) v
  | DeallocBegin t fd =>
      match answer v fd EINVAL with
      | RFlow _ => when (result_eqb r RPending)
                        (View (live v) ((t, fd) :: pending v) (known v) (dirty v) (gone v))
      | x => when (result_eqb r x) v
      end
  | DeallocEnd t ok =>
      match pend_find (pending v) t with
      | None => when (result_eqb r EINVAL) v
      | Some fd =>
          if ok
          then when (result_eqb r (RFd 0))
                    (View (drop (live v) fd) (pend_del (pending v) t) (known v) (dirty v) (gone v))
          else when (result_eqb r EIRMD)
                    (View (live v) (pend_del (pending v) t) (known v) (dirty v) (gone v))
      end
  | Lookup id =>
      match holder (live v) id with
      | Some fd => when (result_eqb r (RFd fd)) v
      | None => when (result_eqb r (RFd (-1))) v
      end
  | Exit => when (result_eqb r (RFd 0)) (View [] [] (known v) (dirty v) true)
  end.

(* What the surroundings guarantee: the IRM daemon gives out flow ids below
   SYS_MAX_FLOWS and not one that is in use; a thread is in one call at a
   time; a process that exits has no other threads left and then makes no
   calls. *)
Definition env_ok (v : view) (e : event) : Prop :=
  gone v = false /\
  match e with
  | Alloc id _ _ => 0 <= id < 10240 /\ holder (live v) id = None
  | DeallocBegin t _ => pend_find (pending v) t = None
  | Exit => pending v = []
  | _ => True
  end.

(* What the program has to avoid for the library to be right. *)
Definition careful (v : view) (e : event) : Prop :=
  match e with
  (* an allocation must not fail while it registers the flow for FRCT *)
  | Alloc _ o f => f = FailAdd -> o = false
  (* after a failed allocation only descriptors that are held may be used *)
  | Use fd => dirty v = true -> owner (live v) fd <> None
  (* fccntl is not called with a number from 4096 up to 10239 *)
  | Cntl fd => (dirty v = true -> owner (live v) fd <> None) /\ ~ (4096 <= fd < 10240)
  (* and neither is flow_dealloc; no two threads deallocate one descriptor *)
  | DeallocBegin t fd =>
      (dirty v = true -> owner (live v) fd <> None) /\ ~ (4096 <= fd < 10240) /\
      ~ In fd (map snd (pending v))
  (* the id is one the process had a flow for *)
  | Lookup id => In id (known v)
  (* the process does not exit after a failed allocation *)
  | Exit => dirty v = false
  | _ => True
  end.

(* The states a process can be in, with what it saw so far, if the
   surroundings keep their guarantees and every event satisfies [P]. *)
Inductive reach (P : view -> event -> Prop) : ai -> view -> Prop :=
| reach_init : reach P ai_init view0
| reach_step a v e a' r v' :
    reach P a v -> env_ok v e -> P v e ->
    step a e = Ok (a', r) -> accept v e r = Some v' ->
    reach P a' v'.

(* The rings, flow sets and FRCT instances that the flows in use need. *)
Fixpoint needed (l : list (Z * (Z * bool))) : nat :=
  match l with
  | [] => 0
  | (_, (_, o)) :: l' => (if o then 4 else 3) + needed l'
  end.

Fixpoint ordered (l : list (Z * (Z * bool))) : Z :=
  match l with
  | [] => 0
  | (_, (_, o)) :: l' => (if o then 1 else 0) + ordered l'
  end.
