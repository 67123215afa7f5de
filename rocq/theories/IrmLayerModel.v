(** How the IRMd learns that an IPCP is in a layer: bootstrap_ipcp and enroll_ipcp,
    src/irmd/main.c:302-365, with reg_get_ipcp, reg_set_layer_for_ipcp and reg_respond_ipcp,
    src/irmd/reg/reg.c:1554-1608, 2092-2120, reg/ipcp.c:76-92, and what the IPCP does,
    do_bootstrap and do_enroll, src/ipcpd/ipcp.c:349-404.

    One IPCP, any number of requests for it at once; each request is three steps: look it up,
    let the IPCP do it, store what came of it.

    Simplifications: a layer is a number that stands for its name and its hash; the IPCP does
    one request at a time (LifeModel has the interleavings in it); the other fields of the
    entry are left out; the IPCP does not end. *)
From Coq Require Import List Arith Bool.
Import ListNotations.

(** bootstrap_ipcp, main.c:302-335, or enroll_ipcp, 337-365. *)
Inductive kind := Bootstrap | Enroll.
(** The state of the entry, include/ouroboros/ipcp.h:35-43; the others are not stored here. *)
Inductive est := EBoot | EOper | EBootstrapped.
(** A request: not made; sent to the IPCP, with the state that was looked up; given up by the
    IRMd (a timeout) though the IPCP has yet to do it; answered by the IPCP; answered to the
    client. *)
Inductive rq := Idle | Sent (k : kind) (e : est) | Lost (k : kind) | Ans (k : kind) (e : est) (r : option nat) | Done (ok : bool).
(** The requests; the entry in the registry, with the layer ("Not enrolled." is None,
    reg/ipcp.c:59); the layer the IPCP is in; whether it reported that it is ready; whether
    the IRMd runs. *)
Record st := St { reqs : nat -> rq; ent : option (est * option nat); own : option nat; reported : bool; up : bool }.
(** The entry as reg_ipcp_create makes it, reg/ipcp.c:51-59. *)
Definition init : st := St (fun _ => Idle) (Some (EBoot, None)) None false true.
(** Bookkeeping, no code: request [i] becomes [r]; the IRMd ends. *)
Definition upd (f : nat -> rq) (i : nat) (r : rq) : nat -> rq := fun j => if j =? i then r else f j.
Definition put (i : nat) (r : rq) (s : st) : st := St (upd (reqs s) i r) (ent s) (own s) (reported s) (up s).
Definition abort (s : st) : st := St (reqs s) (ent s) (own s) (reported s) false.

(** [Get i k]: request i arrives; [Exec i o]: the IPCP does it, the operation gives [o];
    [GiveUp i]: the answer does not come in time; [Store i]; [Report]: the IPCP says that it is
    ready; [Remove]: its pid is removed from the registry. *)
Inductive act := Get (i : nat) (k : kind) | Exec (i : nat) (o : option nat) | GiveUp (i : nat) | Store (i : nat) | Report | Remove.

(** do_bootstrap, do_enroll: only in the state IPCP_INIT, ipcp.c:362-373, 391-401. *)
Definition perform (o : option nat) (s : st) : option nat * st :=
  match own s, o with
  | None, Some l => (Some l, St (reqs s) (ent s) (Some l) (reported s) (up s))
  | _, _ => (None, s)
  end.
(** reg_set_layer_for_ipcp, reg.c:1560-1579, and reg_ipcp_set_layer, reg/ipcp.c:88-91; [e] is
    info->state.  None: an assert fails. *)
Definition set_layer (e : est) (l : nat) (s : st) : option (bool * option (est * option nat)) :=
  match e with
  | EBoot => None
  | _ => match ent s with
         | None => Some (false, None)
         | Some (EOper, _) => Some (true, Some (e, Some l))
         | Some _ => None
         end
  end.

(** One step; None: it cannot happen now.  The lines are of src/irmd/main.c unless said. *)
Definition step (a : act) (s : st) : option st :=
  if negb (up s) then None else
  match a with
  | Get i k =>
      match reqs s i with
      | Idle => match ent s with
                (* 310-313, 345-348 *)
                | None => Some (put i (Done false) s)
                | Some (e, _) => Some (put i (Sent k e) s)
                end
      | _ => None
      end
  | Exec i o =>
      match reqs s i with
      | Sent k e => let '(r, s') := perform o s in Some (put i (Ans k e r) s')
      | Lost k => let '(_, s') := perform o s in Some (put i (Done false) s')
      | _ => None
      end
  | GiveUp i =>
      (* 318-321, 350-353; src/irmd/ipcp.c:197-200, 241-243 *)
      match reqs s i with
      | Sent k _ => Some (put i (Lost k) s)
      | Ans _ _ _ => Some (put i (Done false) s)
      | _ => None
      end
  | Store i =>
      match reqs s i with
      | Ans _ _ None => Some (put i (Done false) s)
      | Ans k e (Some l) =>
          (* 323-328, 355-358 *)
          match set_layer (match k with Bootstrap => EBootstrapped | Enroll => e end) l s with
          | None => Some (abort s)
          | Some (ok, en) => Some (put i (Done ok) (St (reqs s) en (own s) (reported s) (up s)))
          end
      | _ => None
      end
  | Report =>
      (* reg_respond_ipcp; once, ipcp.c:959-966 *)
      if reported s then None
      else Some (St (reqs s) (match ent s with Some (_, l) => Some (EOper, l) | None => None end) (own s) true (up s))
  | Remove => Some (St (reqs s) None (own s) (reported s) (up s))
  end.

(** Steps one after the other; None if one cannot happen. *)
Fixpoint exec (s : st) (l : list act) : option st :=
  match l with
  | [] => Some s
  | a :: l => match step a s with Some s' => exec s' l | None => None end
  end.
