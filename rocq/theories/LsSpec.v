(* What a user expects of the link-state database: the data transfer
   connections of a node, from its history alone. *)

From Coq Require Import NArith ZArith List Bool.
Import ListNotations.

(* A connection: the address of the other end, the flow descriptor, and
   when it was last refreshed. *)
Record conn : Type := Conn { c_addr : N; c_fd : N; c_last : Z }.

(* Connections come and go; a refresh round takes place; anything else. *)
Inductive what : Type := Up (addr fd : N) (now : Z) | Down (addr fd : N) | Round (now : Z) | Other.

(* Orderly histories: one connection to a node at a time, only existing
   connections go down, and refreshing is never more than a minute
   late. *)
Definition conn_step (l : list conn) (w : what) : option (list conn) :=
  match w with
  | Up addr fd now =>
      if existsb (fun c => N.eqb (c_addr c) addr) l then None
      else Some (Conn addr fd now :: l)
  | Down addr fd =>
      if existsb (fun c => N.eqb (c_addr c) addr && N.eqb (c_fd c) fd) l
      then Some (filter (fun c => negb (N.eqb (c_addr c) addr)) l) else None
  | Round now =>
      if forallb (fun c => Z.leb (now - c_last c) 60) l
      then Some (map (fun c => Conn (c_addr c) (c_fd c) now) l) else None
  | Other => Some l
  end.

Fixpoint conn_run (l : list conn) (ws : list what) : option (list conn) :=
  match ws with
  | [] => Some l
  | w :: ws' => match conn_step l w with Some l' => conn_run l' ws' | None => None end
  end.
