(** C46: mapping of QoS specifications to service classes. *)
From Coq Require Import NArith Bool Lia ZifyBool ZifyN.
From Verif Require Import QosModel.
Open Scope N_scope.

(** A flow asking for at most [d] ms delay, at most [b] bit/s, at least
    availability [v] and gaps of at most [g] ms qualifies for a class. *)
Definition qualifies (qs : qosspec) (d b v g : N) : Prop :=
  delay qs <= d /\ bandwidth qs <= b /\ v <= availability qs /\ max_gap qs <= g.

Definition qualifies_class (qs : qosspec) (c : N) : Prop :=
  (c = 0) \/
  (c = 1 /\ qualifies qs 100 (2 ^ 64 - 1) 3 100) \/
  (c = 2 /\ qualifies qs 50 100000 5 50).

(** The class chosen exists, the flow qualifies for it and for no higher one. *)
Theorem qos_cube_most_specific qs :
  qos_spec_to_cube qs < QOS_CUBE_MAX /\
  qualifies_class qs (qos_spec_to_cube qs) /\
  forall c, qualifies_class qs c -> c <= qos_spec_to_cube qs.
Proof.
  unfold qos_spec_to_cube, qualifies_class, qualifies, QOS_CUBE_MAX, QOS_CUBE_VOICE, QOS_CUBE_VIDEO, QOS_CUBE_BE.
  cbn [delay bandwidth availability max_gap qos_voice qos_video]. unfold U64MAX.
  change (2 ^ 64 - 1) with 18446744073709551615.
  destruct ((delay qs <=? 50) && (bandwidth qs <=? 100000) && (5 <=? availability qs) && (max_gap qs <=? 50)) eqn:E1.
  - split; [lia|split; [right; right; lia|intros c; lia]].
  - destruct ((delay qs <=? 100) && (bandwidth qs <=? 18446744073709551615) && (3 <=? availability qs) && (max_gap qs <=? 100)) eqn:E2.
    + split; [lia|split; [right; left; lia|intros c; lia]].
    + split; [lia|split; [left; lia|intros c; lia]].
Qed.
Print Assumptions qos_cube_most_specific.

(** Asking for less delay, smaller gaps, higher availability or less bandwidth
    never gives a lower class. *)
Theorem qos_cube_monotone q q' :
  delay q' <= delay q -> max_gap q' <= max_gap q -> availability q <= availability q' ->
  bandwidth q' <= bandwidth q -> qos_spec_to_cube q <= qos_spec_to_cube q'.
Proof.
  intros H1 H2 H3 H4. apply (proj2 (proj2 (qos_cube_most_specific q'))).
  destruct (proj1 (proj2 (qos_cube_most_specific q))) as [E|[[E Q]|[E Q]]];
    unfold qualifies_class, qualifies in *; [left|right; left|right; right]; lia.
Qed.
Print Assumptions qos_cube_monotone.

(** The predefined specifications get the class they are named after. *)
Theorem qos_cube_predefined :
  qos_spec_to_cube qos_voice = QOS_CUBE_VOICE /\ qos_spec_to_cube qos_voice_crypt = QOS_CUBE_VOICE /\
  qos_spec_to_cube qos_video = QOS_CUBE_VIDEO /\ qos_spec_to_cube qos_video_crypt = QOS_CUBE_VIDEO /\
  qos_spec_to_cube qos_best_effort = QOS_CUBE_BE /\ qos_spec_to_cube qos_best_effort_crypt = QOS_CUBE_BE /\
  qos_spec_to_cube qos_raw = QOS_CUBE_BE /\ qos_spec_to_cube qos_raw_no_errors = QOS_CUBE_BE /\
  qos_spec_to_cube qos_raw_crypt = QOS_CUBE_BE /\ qos_spec_to_cube qos_data = QOS_CUBE_BE /\
  qos_spec_to_cube qos_data_crypt = QOS_CUBE_BE.
Proof. repeat split; vm_compute; reflexivity. Qed.
Print Assumptions qos_cube_predefined.

Example qos_cube_ex : qos_spec_to_cube (mk_qos 70 5 9 1 0 1 100 0 0) = 1 /\ qos_spec_to_cube (mk_qos 50 5 9 1 0 1 50 0 0) = 2.
Proof. vm_compute. auto. Qed.
