(** What the properties of enrollment are about. *)
From Coq Require Import NArith ZArith List Bool.
From Verif Require Import WireModel EnrollModel.
Import ListNotations.
Local Open Scope N_scope.

(** A name of at most 255 characters: bytes that are not zero. *)
Definition name255 (l : list N) : Prop :=
  Forall (fun b => 0 < b < 256) l /\ (length l <= 255)%nat.

(** The configurations a struct ipcp_config can hold: the fields have the
    width of their C type and the member of the union is that of the type
    (1 unicast, 3 and 4 Ethernet, 5 UDP; the other types have none). *)
Definition good_conf (c : conf) : Prop :=
  name255 (lname c) /\ hash_algo c < 2 ^ 32 /\ ctype c < 2 ^ 32 /\
  match cbody c with
  | BUni u => ctype c = 1 /\ addr_size u < 256 /\ eid_size u < 256 /\ max_ttl u < 256 /\
              routing u < 2 ^ 32 /\ addr_auth u < 2 ^ 32 /\ cong u < 2 ^ 32
  | BEth e => (ctype c = 3 \/ ctype c = 4) /\ name255 (dev e) /\ ethertype e < 65536
  | BUdp u => ctype c = 5 /\ ip_addr u < 2 ^ 32 /\ dns_addr u < 2 ^ 32 /\ port u < 65536
  | NoBody => ~ (ctype c = 1 \/ ctype c = 3 \/ ctype c = 4 \/ ctype c = 5)
  end.

(** An identifier of eight bytes. *)
Definition good_id (i : list N) : Prop := length i = 8%nat /\ Forall (fun b => b < 256) i.

(** A point in time as clock_gettime gives it. *)
Definition good_time (t : Z * Z) : Prop :=
  (- 2 ^ 63 <= fst t < 2 ^ 63)%Z /\ (0 <= snd t < 1000000000)%Z.

(** The four things in an answer (after its bytes were taken apart as
    enroll_resp_msg of enroll.proto) that the joining IPCP does not check
    before it relies on them. *)
Definition short_id (m : resp_msg) : Prop := (length (mr_id m) < 8)%nat.
Definition no_conf (m : resp_msg) : Prop := mr_conf m = None.
Definition long_name (c : conf_msg) : Prop :=
  (255 < length (cstr (ml_name (mc_layer c))))%nat \/
  ((mc_type c = 3 \/ mc_type c = 4) /\
   exists e, mc_eth c = Some e /\ (255 < length (cstr (me_dev e)))%nat).
Definition part_missing (c : conf_msg) : Prop :=
  (mc_type c = 1 /\ mc_uni c = None) \/
  ((mc_type c = 3 \/ mc_type c = 4) /\ mc_eth c = None) \/
  (mc_type c = 5 /\ mc_udp c = None).
