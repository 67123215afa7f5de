(** Histories of the packet pool as its users see them: the packets that were
    allocated and not yet removed. *)
From Coq Require Import List NArith Bool.
From Verif Require Import RdrbuffModel.
Import ListNotations.
Open Scope N_scope.

(** A packet: the index alloc returned, the payload length asked for, the number
    of references (1 plus those taken by wait_ack), and whether its owner got
    it (false: the owner died before alloc returned). *)
Record pkt : Type := mk_pkt { p_idx : N; p_len : N; p_refs : N; p_owned : bool }.

Definition drop (i : N) (l : list pkt) : list pkt := filter (fun p => negb (p_idx p =? i)) l.
Definition bump (i r : N) (l : list pkt) : list pkt :=
  map (fun p => if p_idx p =? i then mk_pkt i (p_len p) r (p_owned p) else p) l.

Section Histories.
  Variables LOG BS HDR : N.
  (** Which allocations the history may contain. *)
  Variable ok : rdrb -> N -> Prop.

  Inductive step : rdrb -> list pkt -> rdrb -> list pkt -> Prop :=
  | st_alloc s live len s' i : ok s len -> alloc LOG BS HDR s len = (s', Some i) ->
      step s live s' (mk_pkt i len 1 true :: live)
  | st_fail s live len s' : alloc LOG BS HDR s len = (s', None) -> step s live s' live
  | st_remove s live p s' : In p live -> remove LOG s (p_idx p) = Some s' ->
      step s live s' (if p_refs p =? 1 then drop (p_idx p) live else live)
  | st_wait_ack s live p : In p live ->
      step s live (wait_ack s (p_idx p)) (bump (p_idx p) (p_refs p + 1) live)
  | st_ack s live p : In p live -> 2 <= p_refs p ->
      step s live (ack s (p_idx p)) (bump (p_idx p) (p_refs p - 1) live).

  (** The lock holder dies; the next process to take the lock sanitizes. *)
  Inductive crash : rdrb -> list pkt -> rdrb -> list pkt -> Prop :=
  | cr_alloc s live len k s' :
      let pad := pad_needed LOG s (n_blocks BS HDR len) in
      let all := length (commit_effects LOG (n_blocks BS HDR len) pad) in
      ok s len -> sanitize LOG (crash_alloc LOG BS HDR s len k) = Some s' ->
      crash s live s'
        (if free LOG s (n_blocks BS HDR len + pad) && Nat.leb all k
         then mk_pkt (packet_pos s pad) len 1 false :: live else live)
  | cr_remove s live p k s' : In p live ->
      sanitize LOG (crash_remove LOG s (p_idx p) k) = Some s' ->
      crash s live s' (if p_refs p =? 1 then drop (p_idx p) live else live).

  Inductive steps : rdrb -> list pkt -> rdrb -> list pkt -> Prop :=
  | ss_refl s live : steps s live s live
  | ss_step s live s1 live1 s2 live2 :
      steps s live s1 live1 -> step s1 live1 s2 live2 -> steps s live s2 live2.

  Inductive reach : rdrb -> list pkt -> Prop :=
  | re_init h : reach (mk_rdrb h 0 0) []
  | re_step s live s' live' : reach s live -> step s live s' live' -> reach s' live'
  | re_crash s live s' live' : reach s live -> crash s live s' live' -> reach s' live'.
End Histories.

(** The blocks a packet occupies. *)
Definition occupies (BS HDR : N) (p : pkt) (b : N) : Prop :=
  p_idx p <= b /\ b < p_idx p + n_blocks BS HDR (p_len p).
