(** C41, C57: the registry, directory and directory queries of the shim IPCPs. *)
From Coq Require Import List NArith ZArith Bool Lia ZifyN ZifyBool.
From Verif Require Import ShimModel ShimSpec ShimProofs.
Import ListNotations.
Open Scope N_scope.

(** C41.  Every call in every history returns what the history says it should. *)
Theorem shim_directory_exact : forall ops, run shim_create ops = spec_run [] ops.
Proof. intros. apply run_ok. apply inv0. Qed.
Print Assumptions shim_directory_exact.

(** The address returned for a name is one that was added and not removed, and
    there is one exactly if the name is present. *)
Theorem shim_address_present : forall hist h a,
  (In a (addrs hist h) <-> present hist h a = true) /\ NoDup (addrs hist h).
Proof.
  intros. split; [|apply addrs_nodup]. symmetry. apply present_addrs.
Qed.
Print Assumptions shim_address_present.

Example shim_directory_nonvacuous :
  run shim_create
    [RegAdd [1]; RegAdd [1]; RegHas [1]; RegDel [1]; RegHas [1]; DirAdd [2; 3] 7; DirAdd [2; 3] 8;
     DirAdd [2; 3] 7; DirGet [2; 3]; DirDel [2; 3] 8; DirGet [2; 3]; DirDel [2; 3] 7; DirHas [2; 3];
     DirGet [2; 3]] =
  [ROk; ROk; RBool true; ROk; RBool false; ROk; ROk; RFail; RAddr 8; ROk; RAddr 7; ROk;
   RBool false; RAddr 0].
Proof. reflexivity. Qed.

(** C57.  A query reports success only if a response for its name arrived while it
    was waiting. *)
Theorem shim_query_sound : forall s hist s' q timedout, qreach s hist ->
  qstep s (LWaitEnd q timedout 0) s' ->
  exists h, created hist q = Some h /\ answered hist q h = true.
Proof. exact answer_sound. Qed.
Print Assumptions shim_query_sound.

(** A response reaches a waiting query if no other query for the same name is
    listed.  Missing from the full claim: the two cases refuted below. *)
Theorem shim_query_complete_partial : forall s hist e s1, qreach s hist ->
  In e (listed s) -> qst e = QPending ->
  (forall d, In d (listed s) -> qhash d = qhash e -> d = e) ->
  qstep s (LRespond (qhash e)) s1 ->
  get_q s1 (qid e) = Some (mk_q (qid e) (qhash e) QResponse) /\
  (exists s2, qstep s1 (LWaitEnd (qid e) false 0) s2) /\
  (forall r s2, qstep s1 (LWaitEnd (qid e) false r) s2 -> r = 0%Z).
Proof. exact answer_complete. Qed.
Print Assumptions shim_query_complete_partial.

Definition st_wait : qsys := mk_qsys [mk_q 1 [5] QPending] [] None.
Lemma reach_wait : qreach st_wait [LWait 1 true; LCreate 1 [5]].
Proof.
  eapply qr1; [eapply qr1; [apply qr0|]|].
  - apply (q_create qsys0 1 [5]); reflexivity.
  - refine (q_wait (mk_qsys [mk_q 1 [5] QInit] [] None) 1 (mk_q 1 [5] QInit) _ _); reflexivity.
Qed.
Example shim_query_nonvacuous :
  exists e s1 s2, In e (listed st_wait) /\ qst e = QPending /\
    (forall d, In d (listed st_wait) -> qhash d = qhash e -> d = e) /\
    qstep st_wait (LRespond (qhash e)) s1 /\ qstep s1 (LWaitEnd (qid e) false 0) s2.
Proof.
  exists (mk_q 1 [5] QPending). do 2 eexists. split; [left; reflexivity|].
  split; [reflexivity|]. split; [intros d [<-|[]] _; reflexivity|].
  split; [eapply (q_respond st_wait [5] (mk_q 1 [5] QPending)); reflexivity|].
  eapply q_wait_end; [reflexivity|left; reflexivity|reflexivity].
Qed.

(** A response that arrives between the request and the wait is lost: the query
    then waits although it was answered. *)
Theorem shim_query_early_refuted :
  ~ (forall s hist q e, qreach s hist -> get_q s q = Some e ->
     answered_ever hist q (qhash e) = true -> qst e <> QPending).
Proof.
  intros H.
  assert (R : qreach st_wait [LWait 1 true; LRespond [5]; LCreate 1 [5]]).
  { eapply qr1; [eapply qr1; [eapply qr1; [apply qr0|]|]|].
    - apply (q_create qsys0 1 [5]); reflexivity.
    - apply q_respond_not; [reflexivity|]. intros e [= <-]. discriminate.
    - refine (q_wait (mk_qsys [mk_q 1 [5] QInit] [] None) 1 (mk_q 1 [5] QInit) _ _); reflexivity. }
  exact (H _ _ 1 (mk_q 1 [5] QPending) R eq_refl eq_refl eq_refl).
Qed.
Print Assumptions shim_query_early_refuted.

(** Of two waiting queries for the same name only one is answered. *)
Theorem shim_query_twice_refuted :
  ~ (forall s hist q e, qreach s hist -> get_q s q = Some e ->
     answered hist q (qhash e) = true -> qst e <> QPending).
Proof.
  intros H.
  pose (s2 := mk_qsys [mk_q 2 [5] QPending; mk_q 1 [5] QPending] [] None).
  assert (R : qreach (mk_qsys [mk_q 2 [5] QResponse; mk_q 1 [5] QPending] [] (Some 2))
     [LRespond [5]; LWait 2 true; LCreate 2 [5]; LWait 1 true; LCreate 1 [5]]).
  { eapply qr1; [eapply qr1; [eapply qr1; [apply reach_wait|]|]|].
    - apply (q_create st_wait 2 [5]); reflexivity.
    - refine (q_wait (mk_qsys [mk_q 2 [5] QInit; mk_q 1 [5] QPending] [] None) 2 (mk_q 2 [5] QInit) _ _);
        reflexivity.
    - refine (q_respond s2 [5] (mk_q 2 [5] QPending) _ _ _); reflexivity. }
  exact (H _ _ 1 (mk_q 1 [5] QPending) R eq_refl eq_refl eq_refl).
Qed.
Print Assumptions shim_query_twice_refuted.
