(** Specification vocabulary for the flow packet ring. *)
From Coq Require Import List NArith Bool.
From Verif Require Import RbuffModel.
Import ListNotations.
Open Scope N_scope.

(** Packets whose write was reported successful, on a flow that was open for
    writing when the call was made, oldest first. *)
Definition written (evs : list event) : list N :=
  flat_map (fun e => match e with
                     | EvWrite _ a idx OK => if a =? ACL_RDWR then [idx] else []
                     | _ => []
                     end) evs.

(** Packets returned by reads, oldest first. *)
Definition delivered (evs : list event) : list N :=
  flat_map (fun e => match e with EvRead _ (inr idx) => [idx] | _ => [] end) evs.

(** Packets in the ring, oldest first: the slots from tail up to head. *)
Definition contents (lg : N) (r : rbuff) : list N :=
  map (fun i => slot r ((tail r + N.of_nat i) mod rb_size lg))
      (seq 0 (N.to_nat (rb_used lg r))).

Definition capacity (lg : N) : nat := N.to_nat (rb_size lg - 1).

(** Schedules without process deaths in which no blocked writer is released by
    the flow going down while the ring is full. *)
Definition benign (lg : N) (s : sys) (l : label) : Prop :=
  match l with
  | LResume t =>
      match thr s t with
      | AwakeW _ _ WakeOk => ~ (acl_has (rb s) ACL_FLOWDOWN = true /\ rb_free lg (rb s) = false)
      | AwakeW _ _ WakeOwnerDead => False
      | _ => True
      end
  | LDieWrite _ _ _ | LDieRead _ _ => False
  | _ => True
  end.

(** The same, with processes dying at any point of a read or a write. *)
Definition benign_or_death (lg : N) (s : sys) (l : label) : Prop :=
  match l with
  | LDieWrite _ _ _ | LDieRead _ _ => True
  | _ => benign lg s l
  end.

(** [subseq a b]: [a] is [b] with some elements left out. *)
Inductive subseq {A : Type} : list A -> list A -> Prop :=
| sub_none : subseq [] []
| sub_keep x a b : subseq a b -> subseq (x :: a) (x :: b)
| sub_skip x a b : subseq a b -> subseq a (x :: b).

(** Every schedule in which no reader dies between taking a packet and waking
    the writers. *)
Definition no_read_death (s : sys) (l : label) : Prop :=
  match l with LDieRead _ n => n <> 1%nat | _ => True end.

(** As above, and no blocked writer is released by the flow going down. *)
Definition no_down_release (lg : N) (s : sys) (l : label) : Prop :=
  no_read_death s l /\
  match l with
  | LResume t =>
      match thr s t with
      | AwakeW _ _ WakeTimeout => True
      | AwakeW _ _ _ => ~ (acl_has (rb s) ACL_FLOWDOWN = true /\ rb_free lg (rb s) = false)
      | _ => True
      end
  | _ => True
  end.

Definition any_schedule (s : sys) (l : label) : Prop := True.

(** Executable schedules, for the concrete examples. *)
Fixpoint run (lg : N) (s : sys) (ls : list label) : option (sys * list event) :=
  match ls with
  | [] => Some (s, [])
  | l :: ls' =>
      match step lg s l with
      | None => None
      | Some (s', es) =>
          match run lg s' ls' with
          | None => None
          | Some (s'', es') => Some (s'', es ++ es')
          end
      end
  end.
