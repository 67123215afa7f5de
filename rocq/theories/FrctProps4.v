(* Concrete cases that meet the hypotheses of the theorems of FrctProps2 and
   FrctProps3. *)
From Coq Require Import NArith ZArith List Bool Lia ZifyBool.
From Verif Require Import SeqNoModel SeqNoProofs FrctModel FrctSpec FrctProofs FrctProofs2 FrctRun FrctProps FrctProps2 FrctProps3.
Import ListNotations.
Open Scope Z_scope.

(* C15: a receiver that expects packet 4294967290, near the end of the
   number space, and advertised 256 places. *)
Definition near_wrap : frcti :=
  with_rcv (frcti_create 10 120 60 true (ts 1000))
    (Cr 4294967290 250 true false false 4294967290 (ts 1000) 251).

Definition data_pkt (s : Z) : pci := Pci true false false false false 0 s 0.

Example frct_window_exact_example :
  f_rtx (rcv_cr near_wrap) = true /\ rcv_inactive near_wrap (ts 1001) = false /\
  lwe (rcv_cr near_wrap) = w32 4294967290 /\ rwe (rcv_cr near_wrap) = w32 (4294967290 + 256) /\
  map (fun i => snd (fst (frcti_rcv near_wrap (ts 1001) (data_pkt (w32 i)) [1]%N)))
    [4294967289; 4294967290; 4294967296 + 3; 4294967290 + 255; 4294967290 + 256] =
    [Dropped; Queued; Queued; Queued; Dropped].
Proof. vm_compute. repeat split. Qed.

(* A history of an end: the third packet, the first, the first again, a read. *)
Definition arrive (h : pci) (d : data) : event := Recv (Flight h d 0 0 0).

Definition next (x : ep) (now : Z) (e : event) : ep :=
  match ep_step x now e with Ok (x', _) => x' | UB => x end.

Definition x0 : ep := Ep (frcti_create 10 120 60 true (ts 1000)) [] [] [].
Definition x1 := next x0 (ts 1001) (arrive (Pci true true false false false 0 50 0) [1]%N).
Definition x2 := next x1 (ts 1001) (arrive (data_pkt 52) [3]%N).
Definition x3 := next x2 (ts 1001) (arrive (data_pkt 52) [3]%N).
Definition x4 := next x3 (ts 1002) Read.

Lemma next_ok : forall x now e x', (match ep_step x now e with Ok _ => true | UB => false end) = true ->
  next x now e = x' -> exists out, ep_step x now e = Ok (x', out).
Proof.
  intros x now e x' H E. unfold next in E. destruct (ep_step x now e) as [[y o]|]; [|discriminate].
  subst. eauto.
Qed.

Lemma history_next : forall acc x now e x' acc', end_history x0 acc x ->
  (match ep_step x now e with Ok _ => true | UB => false end) = true ->
  next x now e = x' -> acc ++ accepted_by (fr x) now e = acc' ->
  end_history x0 acc' x'.
Proof.
  intros acc x now e x' acc' H E <- <-. destruct (next_ok x now e _ E eq_refl) as [out F]. eapply eh_step; eauto.
Qed.

Example frct_queue_example :
  end_history x0 [[1]; [3]]%N x4 /\ got x4 = [[1]]%N /\ queued (fr x4) = [[3]]%N.
Proof.
  split; [|vm_compute; split; reflexivity].
  assert (H1 : end_history x0 [[1]]%N x1).
  { apply (history_next [] x0 (ts 1001) (arrive (Pci true true false false false 0 50 0) [1]%N));
      [apply eh_start | vm_compute; reflexivity | vm_compute; reflexivity | vm_compute; reflexivity]. }
  assert (H2 : end_history x0 [[1]; [3]]%N x2).
  { apply (history_next [[1]]%N x1 (ts 1001) (arrive (data_pkt 52) [3]%N));
      [exact H1 | vm_compute; reflexivity | vm_compute; reflexivity | vm_compute; reflexivity]. }
  assert (H3 : end_history x0 [[1]; [3]]%N x3).
  { apply (history_next [[1]; [3]]%N x2 (ts 1001) (arrive (data_pkt 52) [3]%N));
      [exact H2 | vm_compute; reflexivity | vm_compute; reflexivity | vm_compute; reflexivity]. }
  apply (history_next [[1]; [3]]%N x3 (ts 1002) Read);
    [exact H3 | vm_compute; reflexivity | vm_compute; reflexivity | vm_compute; reflexivity].
Qed.

(* C17: a sender whose number space is about to wrap around hears of a
   window beyond it, and writes. *)
Definition sender17 : frcti :=
  with_snd (frcti_create 10 120 60 true (ts 1000))
    (Cr 4294967290 4294967295 true true true 4294967290 (ts 1000) 311).

Definition fc17 : pci := ctrl false true false 0 (w32 (4294967295 + 100)).

Definition snd17 : frcti * pci :=
  match frcti_snd (rcv_fc sender17 fc17) (ts 1001) 0 with Ok r => r | UB => (sender17, fc17) end.

Example frct_window_decoded_example :
  sender (fst snd17) 4294967291 (4294967295 + 100) [(4294967290, 4294967295 + 100)] /\
  rwe (snd_cr (fst snd17)) = 99.
Proof.
  split; [|vm_compute; reflexivity].
  assert (S0 : sender sender17 4294967290 4294967295 []).
  { apply snd_start; try (vm_compute; reflexivity). lia. }
  assert (S1 : sender (rcv_fc sender17 fc17) 4294967290 (4294967295 + 100) []).
  { apply snd_fc with (E := 4294967295); try (vm_compute; reflexivity); [exact S0 | lia]. }
  assert (E : frcti_snd (rcv_fc sender17 fc17) (ts 1001) 0 = Ok (fst snd17, snd snd17))
    by (vm_compute; reflexivity).
  pose proof (snd_write _ _ _ _ (ts 1001) 0 (fst snd17) (snd snd17) S1 ltac:(vm_compute; reflexivity)
                ltac:(left; vm_compute; reflexivity) E) as S2.
  exact S2.
Qed.

(* C18 *)
Example frct_rto_example :
  let f := fold_left sampled [Measured (40 * MILLION); Backoff; Measured (60 * MILLION); Measured 0]
             (frcti_create 10 120 60 true (ts 1000)) in
  srtt f = 37187500 /\ 1000 <= mdev f /\ rto f = srtt f + 4 * mdev f.
Proof. vm_compute. repeat split; discriminate. Qed.

(* C21: the first packet of a run and the third arrive, the second is lost. *)
Definition u0 : frcti := frcti_create 10 120 60 false (ts 1000).
Definition u1 := fst (fst (frcti_rcv u0 (ts 1001) (Pci true true false false false 0 50 0) [1]%N)).
Definition u2 := fst (frcti_queued_pdu u1).
Definition u3 := fst (fst (frcti_rcv u2 (ts 1002) (Pci true true false false false 0 52 0) [3]%N)).
Definition u4 := fst (frcti_queued_pdu u3).

Example frct_loss_example : unreliable_rx 50 u4 [2; 0] /\ rwe (rcv_cr u4) = 50 + 256 + 2.
Proof.
  split; [|vm_compute; reflexivity].
  assert (H : unreliable_rx 50 u2 [0]).
  { apply (ur_first 50 u0 (ts 1001) (Pci true true false false false 0 50 0) [1]%N u1 [] u2);
      vm_compute; reflexivity. }
  apply (ur_next 50 u2 [] 0 2 (ts 1002) (Pci true true false false false 0 52 0) [3]%N u3 Queued [] u4 (Some [3]%N));
    try (vm_compute; reflexivity); [exact H | lia].
Qed.

(* C65: an update that says 300 packets were read reopens a closed window. *)
Definition closed65 : frcti :=
  with_snd (frcti_create 10 120 60 false (ts 1000)) (Cr 300 300 false true false 300 (ts 1000) 311).

Example frct_one_way_example :
  window_closed closed65 = true /\
  let p := ctrl false true false 0 (300 + RQ_SIZE) in
  seqno (snd_cr closed65) = w32 300 /\ rwe (snd_cr closed65) = w32 300 /\
  p_fc p = true /\ p_window p = w32 (300 + RQ_SIZE) mod 2 ^ 24 /\ window_closed (rcv_fc closed65 p) = false.
Proof. vm_compute. repeat split. Qed.

Print Assumptions frct_queue_example.
Print Assumptions frct_window_decoded_example.
Print Assumptions frct_loss_example.
