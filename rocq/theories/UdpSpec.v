(** What C93 and C94 say about the IPCP over UDP. *)
From Coq Require Import List Arith NArith ZArith Bool.
From Verif Require Import Bytes UdpModel.
Import ListNotations.
Open Scope N_scope.

(** The members of a QoS specification fit their types. *)
Definition qos_ok (q : qosspec) : Prop :=
  delay q < 2 ^ 32 /\ bandwidth q < 2 ^ 64 /\ availability q < 2 ^ 8 /\ loss q < 2 ^ 32 /\ ber q < 2 ^ 32 /\
  in_order q < 2 ^ 8 /\ max_gap q < 2 ^ 32 /\ cypher_s q < 2 ^ 16 /\ timeout q < 2 ^ 32.

(** A descriptor of a flow of an IPCP. *)
Definition fd_ok (fd : N) : Prop := 64 <= fd < 10240.

(** The first four bytes say which flow a datagram is for. *)
Definition endpoint (d : list N) : N := unbe (firstn 4 d).
Definition size (d : list N) : N := N.of_nat (length d).

(** The datagrams that break the IPCP when they are received ... *)
Definition breaks_reader (d : list N) : Prop :=
  4 <= size d /\ (endpoint d = 0 /\ 2048 < size d \/ 10240 <= endpoint d).
(** ... and the frames that break it when they are handled: a request without
    room for the hash of a name, an answer for a descriptor that does not
    exist. *)
Definition breaks_handler (L : nat) (d : list N) : Prop :=
  (nth 12 d 0 = 1 /\ (length d < 46 + L)%nat) \/
  (nth 12 d 0 = 2 /\ (46 <= length d)%nat /\ 10240 <= unbe (firstn 4 (skipn 4 d))).

Definition answers (fd : N) (o : list out) : nat :=
  length (filter (fun x => match x with Answered f _ _ => f =? fd | _ => false end) o).
Definition requests (fd : N) (h : list ev) : nat :=
  length (filter (fun x => match x with Alloc f _ _ _ _ _ => f =? fd | _ => false end) h).

(** The events that may give a descriptor a peer again. *)
Definition reopens (fd : N) (e : ev) : Prop :=
  match e with Store f _ => f = fd | Handle (Some f) => f = fd | _ => False end.
