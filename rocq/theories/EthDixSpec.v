(** What C95 and C96 say about the IPCP over DIX Ethernet. *)
From Coq Require Import List Arith NArith ZArith Bool.
From Verif Require Import Bytes EthDixModel.
Import ListNotations.
Open Scope N_scope.

Definition size (d : list N) : N := N.of_nat (length d).

(** A descriptor of a flow of an IPCP, a hardware address, an MTU. *)
Definition fd_ok (fd : N) : Prop := 64 <= fd < 10240.
Definition mac_ok (a : N) : Prop := a < 2 ^ 48.
Definition cfg_ok (c : cfg) : Prop := mac_ok (me c) /\ et c < 2 ^ 16 /\ 4 <= mtu c <= 65535.

(** What a frame says: where it goes, where it comes from, the type, the
    endpoint and the length of what it carries. *)
Definition to_of (f : list N) : N := unbe (firstn 6 f).
Definition from_of (f : list N) : N := unbe (firstn 6 (skipn 6 f)).
Definition type_of (f : list N) : N := unbe (firstn 2 (skipn 12 f)).
Definition endpoint (f : list N) : N := unbe (firstn 2 (skipn 14 f)).
Definition says (f : list N) : N := unbe (firstn 2 (skipn 16 f)).
Definition carries (f : list N) : list N := skipn 18 f.

(** A frame that the link can bring to a node: with a header and not above its
    MTU. *)
Definition whole (c : cfg) (f : list N) : Prop := 18 <= size f <= mtu c + 18.

(** The frames of its layer that break a node when they are received: the
    length they give is too large, or the endpoint is no descriptor ... *)
Definition breaks_reader (c : cfg) (f : list N) : Prop :=
  type_of f = et c /\
  (endpoint f = 0 /\ 2048 < says f \/ endpoint f <> 0 /\ (mtu c + 288 < says f \/ 10240 <= endpoint f)).
(** ... and the messages that break it when they are handled: a request without
    room for the hash of a name, an answer without room for a message or for a
    descriptor that does not exist. *)
Definition breaks_handler (L : nat) (buf : list N) (len : nat) : Prop :=
  (nth 35 buf 0 = 0 /\ (len < 38 + L)%nat) \/
  (nth 35 buf 0 = 1 /\ ((len < 38)%nat \/ 10240 <= unbe (firstn 2 (skipn 2 buf)))).
