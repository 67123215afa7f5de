(** What the properties of connection establishment are about. *)
From Coq Require Import NArith ZArith List Bool.
From Verif Require Import WireModel EnrollModel CepModel.
Import ListNotations.
Local Open Scope N_scope.

(** A C string. *)
Definition cstring (l : list N) : Prop := Forall (fun b => 0 < b < 256) l.

(** What a struct conn_info can hold, with a syntax that is not negative
    as an int and a version below 2^31. *)
Definition good_info (i : info) : Prop :=
  cstring (comp_name i) /\ (length (comp_name i) <= 128)%nat /\
  cstring (protocol i) /\ (length (protocol i) <= 128)%nat /\
  version i < 2 ^ 32 /\ syntax i < 2 ^ 31 /\ addr i < 2 ^ 64.

(** The names are short enough for the message to be received: together at
    most 96 characters. *)
Definition short_names (i : info) : Prop :=
  (length (comp_name i) + length (protocol i) <= 96)%nat.

(** The component with a name: the first one of the table. *)
Inductive first_named (name : list N) : list comp -> nat -> comp -> Prop :=
| first_here c cs : name_of c = name -> first_named name (c :: cs) 0 c
| first_later c cs i d : name_of c <> name -> first_named name cs i d ->
    first_named name (c :: cs) (S i) d.
Definition none_named (name : list N) (cs : list comp) : Prop :=
  forall c, In c cs -> name_of c <> name.

(** The same protocol. *)
Definition same_proto (a b : info) : Prop :=
  protocol a = protocol b /\ version a = version b /\ syntax a = syntax b.
