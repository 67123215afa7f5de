(* Running a flow step by step, to show that histories exist. *)
From Coq Require Import NArith ZArith List Bool Lia ZifyBool.
From Verif Require Import SeqNoModel FrctModel FrctSpec.
Import ListNotations.
Open Scope Z_scope.

(* An event; a packet that arrives is given by the order in which the other
   end sent it. *)
Inductive cmd : Type :=
| CWrite (d : data) (rnd : Z) | CRead | CRecv (i : nat) | CAck
| CFire (n : nat) | CWopen | CWblock | CWtimeout.

Definition resolve (s : flow) (sd : side) (c : cmd) : option event :=
  match c with
  | CWrite d rnd => Some (Write d rnd)
  | CRead => Some Read
  | CRecv i =>
      match nth_error (match sd with A => nba s | B => nab s end) i with
      | Some fl => Some (Recv fl)
      | None => None
      end
  | CAck => Some Ack
  | CFire n => Some (Fire n false true)
  | CWopen => Some Wopen
  | CWblock => Some Wblock
  | CWtimeout => Some Wtimeout
  end.

Definition possible_b (s : flow) (ac : action) : bool :=
  let '(sd, now, e) := ac in
  (clock s <=? now) &&
  match e with Recv fl => now <=? f_sent fl + mpl (fr (ea s)) | _ => true end.

Definition half_space_b (s : flow) (ac : action) : bool :=
  match ac with
  | (A, _, Write _ _) =>
      u32_sub (seqno (snd_cr (fr (ea s)))) (lwe (snd_cr (fr (ea s)))) <? 2 ^ 31 - 1
  | (A, _, Recv fl) => negb (p_ack (f_hdr fl)) || (zlen (wrote (ea s)) - f_got fl <? 2 ^ 31)
  | (B, _, Recv fl) => negb (p_data (f_hdr fl)) || (zlen (wrote (ea s)) - f_no fl <? 2 ^ 31)
  | _ => true
  end.

Definition run_heard_b (s : flow) (ac : action) : bool :=
  match ac with
  | (A, now, Write _ _) => negb (snd_inactive (fr (ea s)) now) || rcv_inactive (fr (eb s)) now
  | (B, _, Recv fl) => negb (await s) || p_data (f_hdr fl)
  | _ => true
  end.

(* A writes only if the window is open (dev.c:1275-1284). *)
Definition polite (s : flow) (ac : action) : Prop :=
  match ac with
  | (A, now, Write _ _) =>
      snd (fst (frcti_is_window_open (fr (ea s)) now)) = true \/ window_closed (fr (ea s)) = false
  | _ => True
  end.

(* A only writes without blocking. *)
Definition polite_b (s : flow) (ac : action) : bool :=
  match ac with
  | (A, now, Write _ _) => snd (fst (frcti_is_window_open (fr (ea s)) now))
  | _ => true
  end.

Fixpoint run (okb : flow -> action -> bool) (l : list (side * Z * cmd)) (s : flow) : option flow :=
  match l with
  | [] => Some s
  | (sd, now, c) :: l' =>
      match resolve s sd c with
      | Some e =>
          if possible_b s (sd, now, e) && okb s (sd, now, e) then
            match flow_step s (sd, now, e) with
            | Ok s' => run okb l' s'
            | UB => None
            end
          else None
      | None => None
      end
  end.

Lemma possible_ok : forall s sd now c e, resolve s sd c = Some e ->
  possible_b s (sd, now, e) = true -> possible s (sd, now, e).
Proof.
  intros s sd now c e R H. unfold possible_b in H. apply andb_true_iff in H. destruct H as [H1 H2].
  split; [lia|]. destruct c; cbn in R; try (injection R as <-; exact I).
  destruct (nth_error _ i) eqn:E; [|discriminate]. injection R as <-.
  split; [eapply nth_error_In; exact E | lia].
Qed.

Lemma half_space_ok : forall s ac, half_space_b s ac = true -> half_space s ac.
Proof.
  intros s [[sd now] e]. unfold half_space_b, half_space.
  destruct sd, e; try tauto; intros H; lia.
Qed.

Lemma run_heard_ok : forall s ac, run_heard_b s ac = true -> run_heard s ac.
Proof.
  intros s [[sd now] e]. unfold run_heard_b, run_heard. destruct sd, e; try tauto; intros H X;
    rewrite X in H; exact H.
Qed.

Lemma polite_ok : forall s ac, polite_b s ac = true -> polite s ac.
Proof.
  intros s [[sd now] e]. unfold polite_b, polite. destruct sd, e; auto.
Qed.

Lemma run_history : forall okb (ok : flow -> action -> Prop) s0,
  (forall s ac, okb s ac = true -> ok s ac) ->
  forall l s s', history (fun s ac => possible s ac /\ ok s ac) s0 s -> run okb l s = Some s' ->
  history (fun s ac => possible s ac /\ ok s ac) s0 s'.
Proof.
  intros okb ok s0 O. induction l as [|[[sd now] c] l IH]; intros s s' H R; cbn [run] in R.
  - injection R as <-. exact H.
  - destruct (resolve s sd c) as [e|] eqn:E; [|discriminate].
    destruct (possible_b s (sd, now, e) && okb s (sd, now, e)) eqn:Ok; [|discriminate].
    destruct (flow_step s (sd, now, e)) as [s1|] eqn:F; [|discriminate].
    apply andb_true_iff in Ok. destruct Ok as [O1 O2].
    eapply IH; [|exact R]. eapply h_step; [exact H | split; [eapply possible_ok; eauto | auto] | exact F].
Qed.
