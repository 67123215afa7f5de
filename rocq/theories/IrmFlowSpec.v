(** What must hold when the IRMd makes a flow (C110). *)
From Coq Require Import List Arith Bool.
From Verif Require Import IrmFlowModel.
Import ListNotations.

Definition res_eq (a b : res) : bool :=
  match a, b with
  | Sym, Sym | Pkp, Pkp | Flow, Flow | Hash, Hash | Rpk, Rpk | Exec, Exec => true
  | _, _ => false
  end.
Definition has (r : res) (l : list res) : bool := existsb (res_eq r) l.
Fixpoint drop (r : res) (l : list res) : list res :=
  match l with [] => [] | x :: t => if res_eq r x then t else x :: drop r t end.
(** What is held at the end; None if something is released or passed on that is not held,
    or is acquired twice. *)
Fixpoint held (h : list res) (es : list ev) : option (list res) :=
  match es with
  | [] => Some h
  | Got r :: t => if has r h then None else held (r :: h) t
  | Gone r :: t | Pass r :: t => if has r h then held (drop r h) t else None
  | _ :: t => held h t
  end.
(** The end of a request, beginning with [h0]. *)
Definition ends (p : prog) (h0 : list res) (ans : list nat) (h : list res) (r : result) : Prop :=
  held h0 (fst (run p ans)) = Some h /\ snd (run p ans) = Some r.
(** What the IPCP was sent. *)
Definition responses (es : list ev) : list (bool * bool) :=
  flat_map (fun e => match e with Resp g k => [(g, k)] | _ => [] end) es.
Definition asked (es : list ev) : list bool :=
  flat_map (fun e => match e with AskIpcp k => [k] | _ => [] end) es.
Definition spawns (es : list ev) : nat := length (filter (fun e => match e with Spawn => true | _ => false end) es).

(** An IPCP that may be asked. *)
Definition usable (x : ipcp) : bool := negb (broadcast x) && enrolled x && mem_ok x.
