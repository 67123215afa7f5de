(** A packet as its users see it: some bytes, with room left before and after
    them. *)
From Coq Require Import List NArith Bool.
From Verif Require Import DuBuffModel.
Import ListNotations.
Open Scope N_scope.

Record packet : Type := mk_packet { front : N; bytes : list N; back : N }.

(** [None]: the caller releases more than the packet holds. *)
Definition spec_step (p : packet) (o : op) : option (packet * res) :=
  let n_bytes := blen (bytes p) in
  match o with
  | PushHead bs =>
      if blen bs <=? front p then Some (mk_packet (front p - blen bs) (bs ++ bytes p) (back p), ROk)
      else Some (p, RNull)
  | PushTail bs =>
      (* one byte of tailspace always stays unused *)
      if blen bs <? back p then Some (mk_packet (front p) (bytes p ++ bs) (back p - blen bs), ROk)
      else Some (p, RNull)
  | PopHead n =>
      if n <=? n_bytes
      then Some (mk_packet (front p + n) (skipn (N.to_nat n) (bytes p)) (back p),
                 RBytes (firstn (N.to_nat n) (bytes p)))
      else None
  | PopTail n =>
      if n <=? n_bytes
      then Some (mk_packet (front p) (firstn (N.to_nat (n_bytes - n)) (bytes p)) (back p + n),
                 RBytes (skipn (N.to_nat (n_bytes - n)) (bytes p)))
      else None
  | Len => Some (p, RLen n_bytes)
  | ReadAll => Some (p, RBytes (bytes p))
  | Truncate n =>
      if n <=? n_bytes
      then Some (mk_packet (front p) (firstn (N.to_nat n) (bytes p)) (back p + (n_bytes - n)), ROk)
      else None
  end.

Fixpoint spec_run (p : packet) (ops : list op) : option (list res) :=
  match ops with
  | [] => Some []
  | o :: t => match spec_step p o with
              | None => None
              | Some (p', r) => option_map (cons r) (spec_run p' t)
              end
  end.

(** No call asks for more than 2^63 bytes of trailer. *)
Definition reasonable (o : op) : Prop :=
  match o with PushTail bs => blen bs < 2 ^ 63 | _ => True end.
