(* C83: an IPCP hands arriving flow requests over one at a time: between a
   request and its answer no other request is passed on, every answer that is
   carried out belongs to the request before it, once, and the next request
   gets its turn.  For every interleaving of requests, answers and wake-ups. *)
From Coq Require Import List ZArith Bool Arith Lia.
From Verif Require Import IpcpAllocModel.
Import ListNotations.
Open Scope Z_scope.

(* ---- specification: what is seen from outside, in order ---- *)
(* Requests passed on and answers carried out alternate, and the answer has
   the descriptor of the request; [p] is the request without answer. *)
Fixpoint one_at_a_time (p : option Z) (os : list out) : Prop :=
  match os with
  | [] => True
  | Published _ d :: os' => p = None /\ 0 <= d /\ one_at_a_time (Some d) os'
  | Answered _ d :: os' => p = Some d /\ one_at_a_time None os'
  | OutOfBounds _ :: _ => False
  | _ :: os' => one_at_a_time p os'
  end.

(* The request that has no answer yet. *)
Fixpoint unanswered (p : option Z) (os : list out) : option Z :=
  match os with
  | [] => p
  | Published _ d :: os' => unanswered (Some d) os'
  | Answered _ _ :: os' => unanswered None os'
  | _ :: os' => unanswered p os'
  end.

(* No request is refused by the daemon, and its answers name a flow. *)
Definition accepting (e : event) : Prop :=
  match e with Resp _ r fd => r = 0 /\ 0 <= fd | _ => True end.

(* ---- proofs ---- *)
Definition idz (p : option Z) : Z := match p with Some d => d | None => -1 end.

Record Inv (s : ipcp) (p : option Z) : Prop := mkInv {
  i_id : alloc_id s = idz p;
  i_pos : forall d, p = Some d -> 0 <= d;
  i_thr : forall t fd, find (thr s) t = Some (InResp fd) -> 0 <= fd
}.

Lemma find_del l t u : find (del l t) u = if Nat.eqb u t then None else find l u.
Proof.
  unfold del. induction l as [|[w p] l IH]; cbn [filter fst find].
  - destruct (Nat.eqb u t); reflexivity.
  - destruct (Nat.eqb_spec w t) as [E|E]; cbn [negb find].
    + rewrite IH. destruct (Nat.eqb_spec u t), (Nat.eqb_spec w u); try reflexivity; lia.
    + rewrite IH. destruct (Nat.eqb_spec w u), (Nat.eqb_spec u t); try reflexivity; lia.
Qed.

Definition out_ok (p : option Z) (o : out) : Prop :=
  match o with
  | Published _ d => p = None /\ 0 <= d
  | Answered _ d => p = Some d
  | OutOfBounds _ => False
  | _ => True
  end.

Lemma req_inv s p t d s' o : Inv s p -> req_loop s t d = (s', o) ->
  Inv s' (unanswered p [o]) /\ out_ok p o.
Proof.
  intros [I1 I2 I3] H. unfold req_loop in H.
  assert (D : forall u fd, find (del (thr s) t) u = Some (InResp fd) -> 0 <= fd).
  { intros u fd. rewrite find_del. destruct (Nat.eqb u t); [discriminate|apply I3]. }
  destruct (negb (alloc_id s =? -1) && oper s) eqn:E1;
    [|destruct (negb (oper s)) eqn:E2; [|destruct (d <? 0) eqn:E3]];
    injection H as <- <-; cbn [unanswered out_ok].
  - split; [|exact I]. split; cbn [alloc_id thr]; auto.
    intros u fd. cbn [find]. destruct (Nat.eqb t u); [discriminate|apply D].
  - split; [|exact I]. split; auto.
  - split; [|exact I]. split; auto.
  - apply Z.ltb_ge in E3. assert (Ep : p = None).
    { destruct p as [c|]; [|reflexivity]. cbn [idz] in I1. specialize (I2 c eq_refl).
      destruct (oper s); [|discriminate]. rewrite andb_true_r in E1.
      apply negb_false_iff, Z.eqb_eq in E1. lia. }
    split; [|auto]. split; cbn [alloc_id thr idz]; auto. intros c [= <-]. exact E3.
Qed.

Lemma resp_inv s p t fd s' o : Inv s p -> 0 <= fd -> resp_loop s t fd = (s', o) ->
  Inv s' (unanswered p [o]) /\ out_ok p o.
Proof.
  intros [I1 I2 I3] Hfd H. unfold resp_loop in H.
  assert (D : forall u f, find (del (thr s) t) u = Some (InResp f) -> 0 <= f).
  { intros u f. rewrite find_del. destruct (Nat.eqb u t); [discriminate|apply I3]. }
  destruct (negb (alloc_id s =? fd) && oper s) eqn:E1;
    [|destruct (negb (oper s)) eqn:E2; [|destruct (Z.ltb_spec fd 0) as [E3|E3]; [lia|]]];
    injection H as <- <-; cbn [unanswered out_ok].
  - split; [|exact I]. split; cbn [alloc_id thr]; auto.
    intros u f. cbn [find]. destruct (Nat.eqb t u); [intros [= <-]; exact Hfd|apply D].
  - split; [|exact I]. split; auto.
  - split; [|]. { split; cbn [alloc_id thr idz]; auto. discriminate. }
    destruct (oper s); [|discriminate]. rewrite andb_true_r in E1.
    apply negb_false_iff, Z.eqb_eq in E1. destruct p as [c|]; cbn [idz] in I1; [f_equal; lia|lia].
Qed.

Lemma step_inv s p e s' o : Inv s p -> accepting e -> step s e = (s', o) ->
  Inv s' (unanswered p [o]) /\ out_ok p o.
Proof.
  intros HI Ha H. destruct e as [t d|t d|t r fd|t|]; cbn [step accepting] in *.
  - destruct (find (thr s) t); [injection H as <- <-; split; [exact HI|exact I]|].
    exact (req_inv _ _ _ _ _ _ HI H).
  - destruct (find (thr s) t) as [[|fd]|]; try (injection H as <- <-; split; [exact HI|exact I]).
    exact (req_inv _ _ _ _ _ _ HI H).
  - destruct (find (thr s) t); [injection H as <- <-; split; [exact HI|exact I]|].
    destruct (negb (oper s)); [injection H as <- <-; split; [exact HI|exact I]|].
    destruct Ha as [-> Hfd]. exact (resp_inv _ _ _ _ _ _ HI Hfd H).
  - destruct (find (thr s) t) as [[|fd]|] eqn:Ef; try (injection H as <- <-; split; [exact HI|exact I]).
    exact (resp_inv _ _ _ _ _ _ HI (i_thr _ _ HI _ _ Ef) H).
  - injection H as <- <-. split; [|exact I]. destruct HI as [I1 I2 I3]. split; auto.
Qed.

Lemma run_inv : forall l s p, Inv s p -> Forall accepting l ->
  one_at_a_time p (snd (run s l)) /\ Inv (fst (run s l)) (unanswered p (snd (run s l))).
Proof.
  induction l as [|e l IH]; intros s p HI Ha; [split; [exact I|exact HI]|].
  inversion Ha as [|? ? A1 A2]; subst. cbn [run].
  destruct (step s e) as [s1 o] eqn:Es.
  destruct (step_inv s p e s1 o HI A1 Es) as [HI' Ho].
  specialize (IH s1 _ HI' A2). destruct (run s1 l) as [s2 os]. cbn [fst snd] in IH.
  destruct IH as [J1 J2].
  destruct o; cbn [fst snd one_at_a_time unanswered out_ok] in *; try tauto; destruct Ho; auto.
Qed.

Lemma init_inv : Inv ipcp_init None.
Proof. split; cbn; try reflexivity; discriminate. Qed.

(* Whatever the schedule, as long as the daemon accepts what it was offered. *)
Theorem requests_one_at_a_time_partial : forall l,
  Forall accepting l -> one_at_a_time None (snd (run ipcp_init l)).
Proof. intros l H. exact (proj1 (run_inv l ipcp_init None init_inv H)). Qed.
Print Assumptions requests_one_at_a_time_partial.

(* Progress.  The answer to the request that is being handed over is carried
   out as soon as its thread runs, whether it comes now or has been waiting;
   when no request is being handed over, any waiting request is passed on as
   soon as its thread runs; and once the IPCP stops, everybody is sent home. *)
Theorem handover_progress : forall l t,
  Forall accepting l ->
  let s := fst (run ipcp_init l) in
  let p := unanswered None (snd (run ipcp_init l)) in
  (oper s = true -> forall d, p = Some d ->
     (find (thr s) t = None -> snd (step s (Resp t 0 d)) = Answered t d) /\
     (find (thr s) t = Some (InResp d) -> snd (step s (RespWake t)) = Answered t d)) /\
  (oper s = true -> p = None -> forall d, 0 <= d ->
     (find (thr s) t = None -> snd (step s (Req t d)) = Published t d) /\
     (find (thr s) t = Some InReq -> snd (step s (ReqWake t d)) = Published t d)) /\
  (oper s = false -> forall d,
     (find (thr s) t = Some InReq -> snd (step s (ReqWake t d)) = ReqFail t) /\
     (forall f, find (thr s) t = Some (InResp f) -> snd (step s (RespWake t)) = RespFail t)).
Proof.
  intros l t Ha s p. pose proof (proj2 (run_inv l ipcp_init None init_inv Ha)) as HI.
  fold s in HI. fold p in HI. clearbody s p. destruct HI as [I1 I2 I3].
  split; [|split].
  - intros Ho d Ep. specialize (I2 d Ep). rewrite Ep in I1. cbn [idz] in I1.
    assert (E : snd (resp_loop s t d) = Answered t d).
    { unfold resp_loop. rewrite I1, Z.eqb_refl, Ho. cbn [negb andb].
      destruct (Z.ltb_spec d 0); [lia|reflexivity]. }
    split; intros Hf; cbn [step]; rewrite Hf.
    + rewrite Ho. cbn [negb]. exact E.
    + exact E.
  - intros Ho Ep d Hd. rewrite Ep in I1. cbn [idz] in I1.
    assert (E : snd (req_loop s t d) = Published t d).
    { unfold req_loop. rewrite I1, Ho. cbn. destruct (Z.ltb_spec d 0); [lia|reflexivity]. }
    split; intros Hf; cbn [step]; rewrite Hf; exact E.
  - intros Ho d. split.
    + intros Hf. cbn [step]. rewrite Hf. unfold req_loop. rewrite Ho, andb_false_r. reflexivity.
    + intros f Hf. cbn [step]. rewrite Hf. unfold resp_loop. rewrite Ho, andb_false_r. reflexivity.
Qed.
Print Assumptions handover_progress.

(* The daemon refuses a request: the response function of the IPCP is called
   with descriptor -1.  If no other request is being handed over, the IPCP
   uses -1 as an index of its table of flows. *)
Theorem refusal_out_of_bounds_refuted :
  snd (run ipcp_init [Resp 1 (-1) 70]) = [OutOfBounds 1] /\
  ~ one_at_a_time None (snd (run ipcp_init [Resp 1 (-1) 70])).
Proof. split; [reflexivity|cbn; tauto]. Qed.
Print Assumptions refusal_out_of_bounds_refuted.

(* Nothing but an acceptance of flow d, or the end of the IPCP. *)
Definition no_acceptance (d : Z) (e : event) : Prop :=
  match e with
  | Resp _ r fd => r <> 0 \/ fd <> d
  | Stop => False
  | _ => True
  end.

(* If the request that was passed on is refused, nothing happens any more: the
   refusal waits, and so does every later request and every answer, however
   often they run and however many come.  The IPCP accepts no flow again. *)
Theorem refusal_blocks_refuted : forall t d l,
  0 <= d -> Forall (no_acceptance d) l ->
  snd (run ipcp_init (Req t d :: l)) = Published t d :: repeat Wait (length l).
Proof.
  intros t d l Hd Hl.
  assert (G : forall l s, alloc_id s = d -> oper s = true ->
     (forall u fd, find (thr s) u = Some (InResp fd) -> fd <> d) ->
     Forall (no_acceptance d) l -> snd (run s l) = repeat Wait (length l)).
  { clear Hl l. induction l as [|e l IH]; intros s Ea Eo Et Hl; [reflexivity|].
    inversion Hl as [|? ? H1 H2]; subst. clear Hl.
    assert (HR : forall u dd, req_loop s u dd =
       (Ipcp (alloc_id s) (oper s) ((u, InReq) :: del (thr s) u), Wait)).
    { intros u dd. unfold req_loop. rewrite Eo.
      destruct (Z.eqb_spec (alloc_id s) (-1)); [lia|reflexivity]. }
    assert (HP : forall u f, f <> alloc_id s -> resp_loop s u f =
       (Ipcp (alloc_id s) (oper s) ((u, InResp f) :: del (thr s) u), Wait)).
    { intros u f Hf. unfold resp_loop. rewrite Eo.
      destruct (Z.eqb_spec (alloc_id s) f); [lia|reflexivity]. }
    assert (K : forall u, (forall f, find (del (thr s) u) f <> None -> True)) by auto. clear K.
    assert (D : forall u w f, find (del (thr s) u) w = Some (InResp f) -> f <> alloc_id s).
    { intros u w f. rewrite find_del. destruct (Nat.eqb w u); [discriminate|apply Et]. }
    assert (S0 : forall s', alloc_id s' = alloc_id s -> oper s' = true ->
       (forall u f, find (thr s') u = Some (InResp f) -> f <> alloc_id s) ->
       step s e = (s', Wait) -> snd (run s (e :: l)) = repeat Wait (length (e :: l))).
    { intros s' Q1 Q2 Q3 Q4. cbn [run]. rewrite Q4. specialize (IH s' Q1 Q2 Q3 H2).
      destruct (run s' l) as [s2 os]. cbn [snd length repeat] in *. rewrite IH. reflexivity. }
    destruct e as [u dd|u dd|u r f|u|]; cbn [no_acceptance step] in *; [| | | |contradiction].
    - destruct (find (thr s) u) eqn:Ef; [exact (S0 s eq_refl Eo Et eq_refl)|].
      refine (S0 _ _ _ _ (HR u dd)); cbn [alloc_id oper thr]; auto.
      intros w f. cbn [find]. destruct (Nat.eqb u w); [discriminate|apply D].
    - destruct (find (thr s) u) as [[|f]|] eqn:Ef; try exact (S0 s eq_refl Eo Et eq_refl).
      refine (S0 _ _ _ _ (HR u dd)); cbn [alloc_id oper thr]; auto.
      intros w f. cbn [find]. destruct (Nat.eqb u w); [discriminate|apply D].
    - destruct (find (thr s) u) eqn:Ef; [exact (S0 s eq_refl Eo Et eq_refl)|].
      rewrite Eo in S0. cbn [negb] in S0.
      assert (Hf : resp_fd r f <> alloc_id s).
      { unfold resp_fd. destruct (Z.eqb_spec r 0); [|lia]. destruct H1; [contradiction|assumption]. }
      refine (S0 _ _ _ _ (HP u _ Hf)); cbn [alloc_id oper thr]; auto.
      intros w g. cbn [find]. destruct (Nat.eqb u w); [intros [= <-]; exact Hf|apply D].
    - destruct (find (thr s) u) as [[|f]|] eqn:Ef; try exact (S0 s eq_refl Eo Et eq_refl).
      pose proof (Et u f Ef) as Hf.
      refine (S0 _ _ _ _ (HP u f Hf)); cbn [alloc_id oper thr]; auto.
      intros w g. cbn [find]. destruct (Nat.eqb u w); [intros [= <-]; exact Hf|apply D]. }
  cbn [run step ipcp_init thr find]. unfold req_loop. cbn [ipcp_init alloc_id oper thr].
  change (negb (-1 =? -1) && true) with false. cbn [negb].
  destruct (Z.ltb_spec d 0); [lia|].
  specialize (G l (Ipcp d true (del [] t)) eq_refl eq_refl).
  destruct (run (Ipcp d true (del [] t)) l) as [s2 os]. cbn [snd] in *. f_equal. apply G; [|exact Hl].
  cbn. discriminate.
Qed.
Print Assumptions refusal_blocks_refuted.

(* A history in which two requests overlap and an answer comes early. *)
Example overlapping_requests :
  let l := [Req 1 64; Req 2 65; Resp 3 0 65; ReqWake 2 65; Resp 4 0 64; RespWake 3;
            ReqWake 2 65; RespWake 3; Req 1 66; Stop; ReqWake 1 66] in
  Forall accepting l /\
  snd (run ipcp_init l) =
    [Published 1 64; Wait; Wait; Wait; Answered 4 64; Wait; Published 2 65; Answered 3 65;
     Published 1 66; Wait; Wait].
Proof.
  split; [|reflexivity].
  repeat constructor; cbn; lia.
Qed.

(* The histories of [refusal_blocks_refuted] include the refusal itself and a
   request after it. *)
Example refused : Forall (no_acceptance 64) [Resp 2 (-1) 64; Req 3 65; RespWake 2; ReqWake 3 65].
Proof. repeat (constructor; [cbn; try exact I; left; lia|]). constructor. Qed.
