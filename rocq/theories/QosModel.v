(** Model of src/lib/qoscube.c and the service classes of
    include/ouroboros/qos.h. *)
From Coq Require Import NArith Bool.
Open Scope N_scope.

(** qos.h:31-41, struct qos_spec.  The widths (32, 64, 8, 32, 32, 8, 32, 16, 32
    bits) do not matter here: nothing is computed, only compared. *)
Record qosspec : Type := mk_qos {
  delay : N; bandwidth : N; availability : N; loss : N; ber : N;
  in_order : N; max_gap : N; cypher_s : N; timeout : N
}.

Definition U32MAX : N := 2 ^ 32 - 1.
Definition U64MAX : N := 2 ^ 64 - 1.
Definition DEFAULT_PEER_TIMEOUT : N := 120000.    (* qos.h:29 *)

(** qos.h:43-173. *)
Definition qos_raw               := mk_qos U32MAX 0 0 1 1 0 U32MAX 0 DEFAULT_PEER_TIMEOUT.
Definition qos_raw_no_errors     := mk_qos U32MAX 0 0 1 0 0 U32MAX 0 DEFAULT_PEER_TIMEOUT.
Definition qos_raw_crypt         := mk_qos U32MAX 0 0 1 0 0 U32MAX 256 DEFAULT_PEER_TIMEOUT.
Definition qos_best_effort       := mk_qos U32MAX 0 0 1 0 1 U32MAX 0 DEFAULT_PEER_TIMEOUT.
Definition qos_best_effort_crypt := mk_qos U32MAX 0 0 1 0 1 U32MAX 256 DEFAULT_PEER_TIMEOUT.
Definition qos_video             := mk_qos 100 U64MAX 3 1 0 1 100 0 DEFAULT_PEER_TIMEOUT.
Definition qos_video_crypt       := mk_qos 100 U64MAX 3 1 0 1 100 256 DEFAULT_PEER_TIMEOUT.
Definition qos_voice             := mk_qos 50 100000 5 1 0 1 50 0 DEFAULT_PEER_TIMEOUT.
Definition qos_voice_crypt       := mk_qos 50 100000 5 1 0 1 50 256 DEFAULT_PEER_TIMEOUT.
Definition qos_data              := mk_qos 1000 0 0 0 0 1 2000 0 DEFAULT_PEER_TIMEOUT.
Definition qos_data_crypt        := mk_qos 1000 0 0 0 0 1 2000 256 DEFAULT_PEER_TIMEOUT.

(** qoscube.h:28-33; the numbers are the enum values. *)
Definition QOS_CUBE_BE    : N := 0.
Definition QOS_CUBE_VIDEO : N := 1.
Definition QOS_CUBE_VOICE : N := 2.
Definition QOS_CUBE_MAX   : N := 3.

(** qoscube.c:30-44, qos_spec_to_cube. *)
Definition qos_spec_to_cube (qs : qosspec) : N :=
  if (delay qs <=? delay qos_voice) && (bandwidth qs <=? bandwidth qos_voice) &&
     (availability qos_voice <=? availability qs) && (max_gap qs <=? max_gap qos_voice)
  then QOS_CUBE_VOICE
  else if (delay qs <=? delay qos_video) && (bandwidth qs <=? bandwidth qos_video) &&
     (availability qos_video <=? availability qs) && (max_gap qs <=? max_gap qos_video)
  then QOS_CUBE_VIDEO
  else QOS_CUBE_BE.
