(* C14: what is read from a reliable flow is the beginning of what was
   written to it.  C16: what the sender considers acknowledged was read.

   Both ends of the flow run the code of frct.c, in any order and at any
   time; the network loses, duplicates, delays and reorders the packets of
   both directions as it likes, but delivers none later than the maximum
   packet lifetime after it was sent. *)
From Coq Require Import NArith ZArith List Bool Lia ZifyBool ZifyNat.
From Verif Require Import SeqNoModel FrctModel FrctSpec FrctProofs FrctProofs2 FrctProofs3 FrctRun.
Import ListNotations.
Open Scope Z_scope.

(* C14, the part that holds: whenever a sender that was silent for so long
   that it starts a new run finds the receive timer of its peer expired as
   well, and no control packet overtakes the first packet of the run. *)
Theorem frct_in_order_partial : forall mpl a r ta tb s,
  0 <= mpl -> 0 <= a -> 0 <= r ->
  history (fun s ac => possible s ac /\ half_space s ac /\ run_heard s ac)
    (flow_init a r mpl true ta tb) s ->
  in_order s.
Proof.
  intros m a r ta tb s Hm Ha Hr H.
  destruct (inv_history m a r Hm Ha Hr ta tb s H)
    as (r0 & s0 & la & ats & lb & atr & q & _ & _ & _ & _ & _ & _ & I).
  destruct I. unfold in_order.
  revert v_pre. generalize (got (eb s)) (wrote (ea s)). clear.
  induction l as [|d g IH]; intros w P.
  - exists (map fst w). reflexivity.
  - destruct (P O d eq_refl) as [t T]. destruct w as [|[d' t'] w]; [discriminate|].
    cbn in T. injection T as -> ->.
    destruct (IH w) as [rest R]. { intros i d0 E. apply (P (S i) d0 E). }
    exists rest. cbn. rewrite R. reflexivity.
Qed.

(* C16, the part that holds, in the same circumstances: when the timer of a
   packet kept for retransmission goes off and it is dropped because it has
   been acknowledged, then its contents and those of all packets before it
   have been read; and the number of packets the sender takes to be without
   acknowledgement is never less than the number that have not been read. *)
Theorem frct_ack_sound_partial : forall mpl a r ta tb s,
  0 <= mpl -> 0 <= a -> 0 <= r ->
  history (fun s ac => possible s ac /\ half_space s ac /\ run_heard s ac)
    (flow_init a r mpl true ta tb) s ->
  (forall e now full wr, In e (rxms (ea s)) -> rxm_fire (fr (ea s)) now e full wr = Acked ->
     x_no e < zlen (got (eb s)) /\
     nth_error (map fst (wrote (ea s))) (Z.to_nat (x_no e)) = Some (x_body e)) /\
  zlen (wrote (ea s)) - zlen (got (eb s)) <=
    u32_sub (seqno (snd_cr (fr (ea s)))) (lwe (snd_cr (fr (ea s)))).
Proof.
  intros m a r ta tb s Hm Ha Hr H.
  destruct (inv_history m a r Hm Ha Hr ta tb s H)
    as (r0 & s0 & la & ats & lb & atr & q & _ & _ & Sx & _ & _ & _ & I).
  destruct I. injection Sx as L1 L2 _ _ _. split.
  - intros e now full wr Ie F. rewrite Forall_forall in v_rx.
    destruct (v_rx e Ie) as (_ & G2 & G3 & G4 & _ & _).
    pose proof (rxm_fire_core (fr (ea s)) now e full wr) as U. rewrite F in U.
    pose proof (wat_lt _ _ _ _ G3) as W. split.
    + destruct (Z_lt_dec (x_no e) la) as [L|L]; [lia|].
      rewrite G2, G4, L1 in U by lia. rewrite seq_before in U by lia. lia.
    + destruct G3 as [_ G3]. rewrite nth_error_map, G3. reflexivity.
  - rewrite L1, L2. unfold FrctProofs2.seq, w32. rewrite SeqNoProofs.sub_wrap.
    rewrite Z.mod_small; [lia|]. unfold two32. change (2 ^ 31) with 2147483648 in *.
    change (2 ^ 32) with 4294967296. lia.
Qed.

(* ---- A history that meets the hypotheses ---- *)

Definition t (s : Z) : Z := s * BILLION.

(* The default times: delta-a 10 s, delta-r 120 s, MPL 60 s. *)
Definition start : flow := flow_init 10 120 60 true (t 1000) (t 1000).

Definition strict (s : flow) (ac : action) : bool := half_space_b s ac && run_heard_b s ac.

(* Packets 0, 1, 2 and 3, with sequence numbers around 2^32: 2 arrives
   before 1, 1 arrives twice, 3 is lost and retransmitted; after a long
   silence, packet 4 in a new run. *)
Definition good_script : list (side * Z * cmd) :=
  [(A, t 1000, CWrite [0]%N (2 ^ 32 - 1)); (A, t 1001, CWrite [1]%N 0); (A, t 1001, CWrite [2]%N 0);
   (A, t 1001, CWrite [3]%N 0);
   (B, t 1001, CRecv 0); (B, t 1001, CRead); (B, t 1002, CRecv 2); (B, t 1002, CRead); (B, t 1003, CRecv 1);
   (B, t 1003, CRecv 1); (B, t 1003, CRead); (B, t 1003, CRead);
   (B, t 1004, CAck); (A, t 1005, CRecv 1); (A, t 1006, CFire 3); (B, t 1007, CRecv 4); (B, t 1007, CRead);
   (B, t 1008, CRecv 0); (B, t 1009, CAck); (A, t 1010, CRecv 2);
   (A, t 1400, CWrite [4]%N 12345); (B, t 1401, CRecv 5); (B, t 1401, CRead)].

Definition good_end : flow :=
  match run strict good_script start with Some s => s | None => start end.

Example frct_in_order_example :
  history (fun s ac => possible s ac /\ half_space s ac /\ run_heard s ac) start good_end /\
  got (eb good_end) = [[0]; [1]; [2]; [3]; [4]]%N /\
  map (fun e => rxm_fire (fr (ea good_end)) (t 1402) e false true) (firstn 4 (rxms (ea good_end)))
    = [Acked; Acked; Acked; Acked] /\
  lwe (snd_cr (fr (ea good_end))) = 12345 /\ seqno (snd_cr (fr (ea good_end))) = 12346.
Proof.
  split.
  - apply (run_history strict (fun s ac => half_space s ac /\ run_heard s ac) start)
      with (l := good_script) (s := start).
    + intros s ac H. apply andb_true_iff in H. destruct H.
      split; [apply half_space_ok | apply run_heard_ok]; assumption.
    + apply h_start.
    + vm_compute. reflexivity.
  - vm_compute. repeat split.
Qed.

(* ---- Without those circumstances ---- *)

(* A writes packet 0; B writes two packets, and A's acknowledgement of
   these keeps B's receive timer running.  A, silent for 320 s, starts a
   new run, whose first number happens to be two less than what B expects:
   the first two packets of the run are duplicates to B. *)
Definition bad_script : list (side * Z * cmd) :=
  [(B, t 1000, CWrite [7]%N 5000); (A, t 1000, CRecv 0);
   (A, t 1000, CWrite [0]%N 1000); (B, t 1001, CRecv 0); (B, t 1001, CRead); (B, t 1002, CAck); (A, t 1003, CRecv 1);
   (B, t 1200, CWrite [8]%N 0); (A, t 1200, CRecv 2); (A, t 1200, CRead); (A, t 1200, CRead);
   (A, t 1201, CAck); (B, t 1202, CRecv 1);
   (A, t 1320, CWrite [1]%N 999); (A, t 1320, CWrite [2]%N 0); (A, t 1320, CWrite [3]%N 0);
   (B, t 1321, CRecv 2); (B, t 1321, CRecv 3); (B, t 1321, CRecv 4); (B, t 1321, CRead);
   (A, t 1322, CRecv 3)].

Definition bad_end : flow :=
  match run half_space_b bad_script start with Some s => s | None => start end.

Lemma bad_history : history (fun s ac => possible s ac /\ half_space s ac) start bad_end.
Proof.
  apply (run_history half_space_b half_space start) with (l := bad_script) (s := start).
  - intros s ac H. apply half_space_ok. exact H.
  - apply h_start.
  - vm_compute. reflexivity.
Qed.

(* Packets 1 and 2 are never read, packet 3 is: a reliable flow, with no
   packet lost by the network, skips two packets. *)
Theorem frct_in_order_refuted :
  ~ (forall mpl a r ta tb s, 0 <= mpl -> 0 <= a -> 0 <= r ->
      history (fun s ac => possible s ac /\ half_space s ac) (flow_init a r mpl true ta tb) s ->
      in_order s).
Proof.
  intros H. destruct (H 60 10 120 (t 1000) (t 1000) bad_end) as [rest R]; try lia.
  - exact bad_history.
  - revert R. vm_compute. discriminate.
Qed.

Definition lost : rxm :=
  nth 1 (rxms (ea bad_end)) (Rxm 0 (ctrl false false false 0 0) [] 0 0).

(* And the sender takes the lost packets to be acknowledged, so that they
   are not retransmitted. *)
Theorem frct_ack_sound_refuted :
  ~ (forall mpl a r ta tb s, 0 <= mpl -> 0 <= a -> 0 <= r ->
      history (fun s ac => possible s ac /\ half_space s ac) (flow_init a r mpl true ta tb) s ->
      forall e now, In e (rxms (ea s)) -> rxm_fire (fr (ea s)) now e false true = Acked ->
      In (x_body e) (got (eb s))).
Proof.
  intros H.
  assert (X1 : nth_error (rxms (ea bad_end)) 1 = Some lost) by (vm_compute; reflexivity).
  assert (X2 : x_body lost = [1]%N) by (vm_compute; reflexivity).
  assert (X3 : rxm_fire (fr (ea bad_end)) (t 1323) lost false true = Acked) by (vm_compute; reflexivity).
  assert (X4 : got (eb bad_end) = [[0]; [3]]%N) by (vm_compute; reflexivity).
  specialize (H 60 10 120 (t 1000) (t 1000) bad_end ltac:(lia) ltac:(lia) ltac:(lia) bad_history lost (t 1323)
                (nth_error_In _ _ X1) X3).
  rewrite X2, X4 in H. destruct H as [H | [H | []]]; discriminate H.
Qed.

Print Assumptions frct_in_order_partial.
Print Assumptions frct_ack_sound_partial.
Print Assumptions frct_in_order_refuted.
Print Assumptions frct_ack_sound_refuted.
