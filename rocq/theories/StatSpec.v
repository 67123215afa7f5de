(** What a user may rely on when reading the files of the RIB (C105). *)
From Coq Require Import List Bool NArith ZArith String.
From Verif Require Import RibModel StatModel.
Import ListNotations.
Local Open Scope N_scope.

(** A text shows a number: decimal digits of that value, without leading zeros. *)
Definition digit (c : N) : Prop := 48 <= c <= 57.
Definition number (s : str) : N := fold_left (fun a c => a * 10 + (c - 48)) s 0.
Definition shows (s : str) (n : N) : Prop :=
  number s = n /\ Forall digit s /\ (s = [48] \/ (s <> [] /\ hd 48 s <> 48)).

(** A row of a table: a label, and a value on the right of a column of 20. *)
Definition cells (label : string) (v : str) : str := s2l label ++ List.repeat 32 (20 - List.length v)%nat ++ v ++ [10].
Definition row (label : string) (n : N) (t : str) : Prop := exists v, shows v n /\ t = cells label v.
Inductive table : list (string * N) -> str -> Prop :=
| TNil : table [] []
| TRow : forall l n tb t u, row l n t -> table tb u -> table ((l, n) :: tb) (t ++ u).

Definition word (n : N) : Prop := n < 2 ^ 64.

(** The table of the counters of a QoS cube. *)
Definition cube_rows (c : cube) : list (string * N) :=
  [(" sent (packets):          ", snd_pkt c); (" sent (bytes):            ", snd_bytes c);
   (" rcvd (packets):          ", rcv_pkt c); (" rcvd (bytes):            ", rcv_bytes c);
   (" local sent (packets):    ", lcl_w_pkt c); (" local sent (bytes):      ", lcl_w_bytes c);
   (" local rcvd (packets):    ", lcl_r_pkt c); (" local rcvd (bytes):      ", lcl_r_bytes c);
   (" dropped ttl (packets):   ", r_drp_pkt c); (" dropped ttl (bytes):     ", r_drp_bytes c);
   (" failed writes (packets): ", w_drp_pkt c); (" failed writes (bytes):   ", w_drp_bytes c);
   (" failed nhop (packets):   ", f_nhp_pkt c); (" failed nhop (bytes):     ", f_nhp_bytes c)]%string.
Definition cube_ok (c : cube) : Prop := Forall (fun p => word (snd p)) (cube_rows c).

(** The table of the counters of a flow: each label names its counter. *)
Definition fa_rows (f : faflow) : list (string * N) :=
  [("Remote address:                  ", r_addr f); ("Local endpoint ID:               ", s_eid f);
   ("Remote endpoint ID:              ", r_eid f);
   ("Sent (packets):                  ", p_snd f); ("Sent (bytes):                    ", b_snd f);
   ("Send failed (packets):           ", p_snd_f f); ("Send failed (bytes):             ", b_snd_f f);
   ("Received (packets):              ", p_rcv f); ("Received (bytes):                ", b_rcv f);
   ("Receive failed (packets):        ", p_rcv_f f); ("Receive failed (bytes):          ", b_rcv_f f);
   ("Sent flow updates (packets):     ", u_snd f); ("Received flow updates (packets): ", u_rcv f)]%string.
Definition fa_ok (f : faflow) : Prop := Forall (fun p => word (snd p)) (fa_rows f).
(** The table of multi-bit ECN. *)
Definition mb_rows (c : mbctx) : list (string * N) :=
  [("Upstream congestion level:       ", tx_ece c); ("Upstream packet counter:         ", tx_ctr c);
   ("Downstream congestion level:     ", rx_ece c); ("Downstream packet counter:       ", rx_ctr c);
   ("Congestion window size (ns):     ", 2 ^ tx_mul c);
   ("Packets in this window:          ", tx_wpc c); ("Bytes in this window:            ", tx_wbc c);
   ("Max bytes in this window:        ", tx_wbl c)]%string.
Definition mb_ok (c : mbctx) : Prop := Forall (fun p => word (snd p)) (mb_rows c).
(** A text shows a number that can be negative. *)
Definition showsZ (s : str) (z : Z) : Prop :=
  ((0 <= z)%Z /\ shows s (Z.to_N z)) \/ ((z < 0)%Z /\ exists w, s = 45 :: w /\ shows w (Z.to_N (- z))).
Inductive tableZ : list (string * Z) -> str -> Prop :=
| ZNil : tableZ [] []
| ZRow : forall l z v tb u, showsZ v z -> tableZ tb u -> tableZ ((l, z) :: tb) (cells l v ++ u).
(** The state of a flow with FRCT: each label names its value. *)
Definition fr_rows (f : fr) : list (string * Z) :=
  [("Maximum packet lifetime (ns):    ", fr_mpl f); ("Max time to Ack (ns):            ", fr_a f);
   ("Max time to Retransmit (ns):     ", fr_r f); ("Smoothed rtt (ns):               ", fr_srtt f);
   ("RTT standard deviation (ns):     ", fr_mdev f); ("Retransmit timeout RTO (ns):     ", fr_rto f);
   ("Sender left window edge:         ", Z.of_N (snd_lwe f)); ("Sender right window edge:        ", Z.of_N (snd_rwe f));
   ("Sender inactive (ns):            ", snd_idle f); ("Sender current sequence number:  ", Z.of_N (snd_seqno f));
   ("Receiver left window edge:       ", Z.of_N (rcv_lwe f)); ("Receiver right window edge:      ", Z.of_N (rcv_rwe f));
   ("Receiver inactive (ns):          ", rcv_idle f); ("Receiver last ack:               ", Z.of_N (rcv_seqno f));
   ("Number of pkt retransmissions:   ", Z.of_N (n_rtx f)); ("Number of rtt probes:            ", Z.of_N (n_prb f));
   ("Number of rtt estimates:         ", Z.of_N (n_rtt f)); ("Number of duplicates received:   ", Z.of_N (n_dup f));
   ("Number of delayed acks received: ", Z.of_N (n_dak f)); ("Number of rendez-vous sent:      ", Z.of_N (n_rdv f));
   ("Number of packets out of window: ", Z.of_N (n_out f)); ("Number of packets out of rqueue: ", Z.of_N (n_rqo f))]%string.
Definition long (z : Z) : Prop := (- 2 ^ 63 <= z < 2 ^ 63)%Z.
Definition fr_ok (f : fr) : Prop :=
  Forall long [fr_mpl f; fr_a f; fr_r f; fr_srtt f; fr_mdev f; fr_rto f; snd_idle f; rcv_idle f] /\
  Forall word [snd_lwe f; snd_rwe f; snd_seqno f; rcv_lwe f; rcv_rwe f; rcv_seqno f;
               n_rtx f; n_prb f; n_rtt f; n_dup f; n_dak f; n_rdv f; n_out f; n_rqo f].

(** A text ends with another one, at the start of a line. *)
Definition ends (t u : str) : Prop := exists a, t = a ++ u /\ (a = [] \/ last a 0 = 10).

(** What happens to the descriptors of data transfer, latest first: one is taken
    into use, with the address of a neighbour or of the IPCP, or given up. *)
Inductive dev := Take (now : Z) (fd : nat) (a : N) | Leave (now : Z) (fd : nat).
Fixpoint dt_after (h : list dev) : dts :=
  match h with
  | [] => dt_new
  | Take now fd a :: h' => stat_used (dt_after h') now fd a
  | Leave now fd :: h' => stat_used (dt_after h') now fd 0
  end.
(** Whether a descriptor is in use, by the history alone. *)
Fixpoint in_use (h : list dev) (fd : nat) : bool :=
  match h with
  | [] => false
  | Take _ k _ :: h' => if Nat.eqb fd k then true else in_use h' fd
  | Leave _ k :: h' => if Nat.eqb fd k then false else in_use h' fd
  end.
(** Descriptors are taken when free, left when in use. *)
Fixpoint proper (h : list dev) : Prop :=
  match h with
  | [] => True
  | Take now fd a :: h' => (fd < 4096)%nat /\ a <> 0 /\ (now <> 0)%Z /\ in_use h' fd = false /\ proper h'
  | Leave _ fd :: h' => in_use h' fd = true /\ proper h'
  end.
(** The descriptors in use, in order. *)
Definition all_in_use (h : list dev) : list nat := List.filter (in_use h) (List.seq 0 4096).
