(** C07-C09 and C52: the shared packet pool. *)
From Coq Require Import List NArith Bool Lia.
From Verif Require Import RdrbuffModel RdrbuffSpec RdrbuffProofs.
Import ListNotations.
Open Scope N_scope.

Section Statements.
  (** A pool of 2^LOG blocks of BS bytes, headers of HDR bytes. *)
  Variables LOG BS HDR : N.
  Hypothesis HLOG : 1 <= LOG.
  Hypothesis HBS : 1 <= BS.
  Notation reachable := (reach LOG BS HDR anything).

  (** C07, C52.  In every history, with crashes, two live packets never share a
      block. *)
  Theorem rdrbuff_disjoint s live p q b : reachable s live -> In p live -> In q live ->
    occupies BS HDR p b -> occupies BS HDR q b -> p = q.
  Proof. exact (live_disjoint LOG BS HDR HLOG HBS anything s live p q b). Qed.

  (** C07, C52.  A live packet lies inside the pool, is large enough for header,
      headspace, payload and tailspace, and its header still says what it said
      when it was allocated (with the references taken since). *)
  Theorem rdrbuff_live_intact s live p : reachable s live -> In p live ->
    p_idx p + n_blocks BS HDR (p_len p) <= 2 ^ LOG /\
    256 + 32 + p_len p + HDR <= n_blocks BS HDR (p_len p) * BS /\
    blocks (hdrs s (p_idx p)) = n_blocks BS HDR (p_len p) /\
    refs (hdrs s (p_idx p)) = p_refs p /\ idx (hdrs s (p_idx p)) = p_idx p /\
    (p_owned p = true -> size (hdrs s (p_idx p)) = 256 + 32 + p_len p).
  Proof. exact (live_pkt LOG BS HDR HLOG HBS anything s live p). Qed.

  (** C07.  Allocation succeeds exactly if the blocks between tail and head, the
      padding up to the end of the pool (if the packet does not fit there) and
      the packet's blocks leave two blocks. *)
  Theorem rdrbuff_alloc_result s live len : reachable s live ->
    let pad := if 2 ^ LOG <? head s + n_blocks BS HDR len then 2 ^ LOG - head s else 0 in
    let in_use := (head s + 2 ^ LOG - tail s) mod 2 ^ LOG in
    (in_use + pad + n_blocks BS HDR len + 2 <= 2 ^ LOG ->
       exists s' i, alloc LOG BS HDR s len = (s', Some i) /\ i = (if pad =? 0 then head s else 0)) /\
    (~ in_use + pad + n_blocks BS HDR len + 2 <= 2 ^ LOG -> alloc LOG BS HDR s len = (s, None)).
  Proof. exact (alloc_result LOG BS HDR HLOG HBS anything s live len). Qed.

  (** C07.  Removing a live packet always terminates. *)
  Theorem rdrbuff_remove_terminates s live p : reachable s live -> In p live ->
    exists s', remove LOG s (p_idx p) = Some s'.
  Proof. exact (remove_total LOG BS HDR HLOG HBS anything s live p). Qed.

  (** C52.  After a death at any point inside alloc or remove, the recovery run
      by the next process terminates (and its state is again reachable, so the
      theorems above hold of it). *)
  Theorem rdrbuff_recovery_terminates s live p len k : reachable s live ->
    (exists s', sanitize LOG (crash_alloc LOG BS HDR s len k) = Some s') /\
    (In p live -> exists s', sanitize LOG (crash_remove LOG s (p_idx p) k) = Some s').
  Proof. exact (sanitize_total LOG BS HDR HLOG HBS anything s live p len k). Qed.

  (** C08.  If no allocation has to pad while the pool is empty, the pool is
      empty once everything is removed. *)
  Theorem rdrbuff_reclaimed_partial s : reach LOG BS HDR (no_empty_pad LOG BS HDR) s [] -> head s = tail s.
  Proof. exact (reclaimed LOG BS HDR HLOG HBS s). Qed.

  (** C08.  In particular if every packet fits in one block. *)
  Theorem rdrbuff_reclaimed_single_block_partial s :
    reach LOG BS HDR (fun _ len => n_blocks BS HDR len = 1) s [] -> head s = tail s.
  Proof. exact (single_block_reclaimed LOG BS HDR s HLOG HBS). Qed.

  (** C09.  A blocking allocation that does not wait does what the non-blocking
      one does. *)
  Theorem rdrbuff_alloc_b_immediate_partial s len :
    alloc_b_begin LOG BS HDR s len =
    (fst (alloc LOG BS HDR s len),
     match snd (alloc LOG BS HDR s len) with
     | Some i => Done i
     | None => Wait (pad_needed LOG s (n_blocks BS HDR len))
     end).
  Proof. exact (begin_eq LOG BS HDR s len). Qed.

  (** C09.  After a wake-up it does so too if it remembers no padding, or the
      packet still does not fit before the end of the pool. *)
  Theorem rdrbuff_alloc_b_wake_partial s len pad :
    pad = 0 \/ 2 ^ LOG < n_blocks BS HDR len + head s ->
    alloc_b_wake LOG BS HDR s len pad =
    (fst (alloc LOG BS HDR s len),
     match snd (alloc LOG BS HDR s len) with
     | Some i => Done i
     | None => Wait (pad_needed LOG s (n_blocks BS HDR len))
     end).
  Proof. exact (wake_eq LOG BS HDR s len pad). Qed.
End Statements.
Print Assumptions rdrbuff_disjoint.
Print Assumptions rdrbuff_live_intact.
Print Assumptions rdrbuff_alloc_result.
Print Assumptions rdrbuff_remove_terminates.
Print Assumptions rdrbuff_recovery_terminates.
Print Assumptions rdrbuff_reclaimed_partial.
Print Assumptions rdrbuff_reclaimed_single_block_partial.
Print Assumptions rdrbuff_alloc_b_immediate_partial.
Print Assumptions rdrbuff_alloc_b_wake_partial.

(** The default configuration: 16384 blocks of 4096 bytes, 48-byte headers.
    [L n] is the largest payload that takes [n] blocks. *)
Definition L (n : N) : N := n * 4096 - 288 - 48.

(** C08 refuted.  A reachable state without any live packet in which every
    allocation fails, now and ever after (until some process dies holding the
    lock). *)
Theorem rdrbuff_reclaimed_refuted :
  exists s, reach 14 4096 48 anything s [] /\
    (forall len, alloc 14 4096 48 s len = (s, None)) /\
    forall s' live', steps 14 4096 48 anything s [] s' live' -> s' = s /\ live' = [].
Proof.
  destruct (exec_witness 14 4096 48
    [A (L 10000); R 0; A (L 6383); R 10000;      (* head = tail = 16383 *)
     A (L 2); R 0;                                (* pads the empty pool *)
     A (L 10000); R 2; A (L 6379); R 10002]
    (fun s live => live = [] /\ used 14 s = 16383)) as (s & live & H & -> & U).
  { vm_compute. split; reflexivity. }
  exists s. split; [exact H|]. apply stuck; [rewrite U; vm_compute; discriminate|lia].
Qed.
Print Assumptions rdrbuff_reclaimed_refuted.

(** C09 refuted.  A blocking allocation waits with padding 2384; while it waits,
    others fill the end of the pool, wrap around and free space; when it wakes
    up it is given blocks that hold a live packet. *)
Theorem rdrbuff_alloc_b_overlap_refuted :
  exists s0 live0 s1 live1 s2 len pad i p b,
    reach 14 4096 48 anything s0 live0 /\
    alloc_b_begin 14 4096 48 s0 len = (s0, Wait pad) /\
    steps 14 4096 48 anything s0 live0 s1 live1 /\
    alloc_b_wake 14 4096 48 s1 len pad = (s2, Done i) /\
    In p live1 /\ occupies 4096 48 p b /\ i <= b /\ b < i + n_blocks 4096 48 len.
Proof.
  destruct (exec_witness 14 4096 48 [A (L 10000); R 0; A (L 4000)]
    (fun s live => snd (alloc_b_begin 14 4096 48 s (L 11000)) = Wait 2384 /\
       match exec 14 4096 48 s live [A (L 2384); A (L 100); R 10000] with
       | Some (s1, live1) => snd (alloc_b_wake 14 4096 48 s1 (L 11000) 2384) = Done 0 /\
                             live1 = [mk_pkt 0 (L 100) 1 true; mk_pkt 14000 (L 2384) 1 true]
       | None => False
       end)) as (s0 & live0 & H & W & K).
  { vm_compute. repeat split; reflexivity. }
  destruct (exec 14 4096 48 s0 live0 [A (L 2384); A (L 100); R 10000]) as [[s1 live1]|] eqn:E; [|destruct K].
  destruct K as (K1 & ->).
  exists s0, live0, s1, [mk_pkt 0 (L 100) 1 true; mk_pkt 14000 (L 2384) 1 true],
         (fst (alloc_b_wake 14 4096 48 s1 (L 11000) 2384)), (L 11000), 2384, 0, (mk_pkt 0 (L 100) 1 true), 50.
  split; [exact H|]. split.
  { rewrite begin_eq in W |- *. unfold as_outcome in *. cbn [fst snd] in *.
    destruct (alloc 14 4096 48 s0 (L 11000)) as [s' [j|]] eqn:E2; cbn [fst snd] in *; [discriminate|].
    apply alloc_fail in E2. congruence. }
  split; [apply exec_steps in E; exact E|].
  split; [rewrite <- K1; destruct (alloc_b_wake 14 4096 48 s1 (L 11000) 2384); reflexivity|].
  split; [left; reflexivity|]. unfold occupies. cbn [p_idx p_len].
  change (n_blocks 4096 48 (L 100)) with 100. change (n_blocks 4096 48 (L 11000)) with 11000. lia.
Qed.
Print Assumptions rdrbuff_alloc_b_overlap_refuted.

(** A reachable pool that wrapped around (with padding), three live packets. *)
Example rdrbuff_ex : exists s live, reach 14 4096 48 anything s live /\
  (map p_idx live = [0; 13000; 10000] /\ head s = 6000 /\ tail s = 10000 /\ snd (alloc 14 4096 48 s 0) = Some 6000 /\
   snd (alloc 14 4096 48 s (L 4000)) = None).
Proof.
  apply (exec_witness 14 4096 48 [A (L 10000); A (L 3000); A (L 3000); R 0; A (L 6000)]).
  vm_compute. repeat split; reflexivity.
Qed.
