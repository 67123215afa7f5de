(* C67: the events that a process collects are handed out to it. *)
From Coq Require Import ZArith List Bool Lia Arith ZifyBool ZifyNat.
From Verif Require Import FsetModel FqModel.
Import ListNotations.
Open Scope Z_scope.

(* Successive calls of fqueue_next, each with the flows as they are then. *)
Fixpoint nexts (q : fqueue) (ws : list world) : fqueue * list Z :=
  match ws with
  | [] => (q, [])
  | w :: ws' => let '(_, q1, fd) := fqueue_next w q in
                let (q2, r) := nexts q1 ws' in (q2, fd :: r)
  end.

(* What a list of events hands out to calls that find the flows ws: each
   event once, in order, as the descriptor of its flow; a packet event of a
   flow that is gone may be left out. *)
Definition descriptor (w : world) (id : Z) : Z := match w id with Some f => fd_of f | None => -1 end.

Inductive handed : list fevt -> list world -> list Z -> Prop :=
| hand_stop : forall l, handed l [] []
| hand_empty : forall w ws r, handed [] ws r -> handed [] (w :: ws) (EPERM :: r)
| hand_gone : forall id l w ws r, w id = None -> handed l (w :: ws) r ->
    handed ((id, FLOW_PKT) :: l) (w :: ws) r
| hand_out : forall id ev l w ws r, handed l ws r ->
    handed ((id, ev) :: l) (w :: ws) (descriptor w id :: r).

(* No flow with the flow and retransmission layer lacks data. *)
Definition has_data (w : world) : Prop :=
  forall id f rdy rx, w id = Some f -> frct f = Some (rdy, rx) -> rdy = true.

Lemma filter_data : forall w l w' n r, has_data w -> filter_from w l = (w', n, r) ->
  w' = w /\
  (forall i e, (i < n)%nat -> nth_error l i = Some e -> snd e = FLOW_PKT /\ w (fst e) = None) /\
  (n <= length l)%nat /\ (r = true -> (n < length l)%nat) /\ (r = false -> n = length l).
Proof.
  intros w l. induction l as [|[id ev] l IH]; intros w' n r D E; cbn [filter_from] in E.
  - injection E as <- <- <-. cbn. repeat split; auto; intros; try lia; discriminate.
  - destruct (negb (ev =? FLOW_PKT)) eqn:Ev.
    { injection E as <- <- <-. cbn [length]. repeat split; auto; intros; try lia; discriminate. }
    destruct (w id) as [f|] eqn:Ew.
    + destruct (frct f) as [[rdy rx]|] eqn:Ef.
      * rewrite (D id f rdy rx Ew Ef) in E.
        injection E as <- <- <-. cbn [length]. repeat split; auto; intros; try lia; discriminate.
      * injection E as <- <- <-. cbn [length]. repeat split; auto; intros; try lia; discriminate.
    + destruct (filter_from w l) as [[w2 n2] r2]. injection E as <- <- <-.
      destruct (IH w2 n2 r2 D eq_refl) as (I1 & I2 & I3 & I4 & I5). cbn [length].
      split; [exact I1|]. split; [|split; [lia|split; [intros X; specialize (I4 X); lia|intros X; now rewrite I5]]].
      intros [|i] e Hi He; cbn in He.
      * injection He as <-. cbn [fst snd]. split; [lia | exact Ew].
      * apply (I2 i e); [lia | exact He].
Qed.

Lemma skipn_nth : forall (l : list fevt) n e, nth_error l n = Some e -> skipn n l = e :: skipn (S n) l.
Proof.
  induction l as [|x l IH]; intros [|n] e H; cbn in *; try discriminate; [injection H as ->; reflexivity | auto].
Qed.

Lemma gone_many : forall n l w ws r,
  (n <= length l)%nat ->
  (forall i e, (i < n)%nat -> nth_error l i = Some e -> snd e = FLOW_PKT /\ w (fst e) = None) ->
  handed (skipn n l) (w :: ws) r -> handed l (w :: ws) r.
Proof.
  induction n as [|n IH]; intros l w ws r Hl H Hd; [exact Hd|].
  destruct l as [|[id ev] l]; cbn in Hl; [lia|]. cbn [skipn] in Hd.
  destruct (H O (id, ev) ltac:(lia) eq_refl) as [X Y]. cbn in X, Y. subst ev.
  apply hand_gone; [exact Y|]. apply IH; auto; [lia|].
  intros i e Hi He. apply (H (S i) e); [lia | exact He].
Qed.

(* C67, the part that holds: as long as flows with flow control that have
   an event also have data, the calls of fqueue_next hand out what fevent
   collected, in order and each event once; and fevent collects new events
   only when all are handed out. *)
Theorem fq_events_handed_partial : forall ws q, Forall has_data ws ->
  (fq_next q <= length (fq_events q))%nat ->
  forall q' r, nexts q ws = (q', r) ->
  handed (skipn (fq_next q) (fq_events q)) ws r.
Proof.
  induction ws as [|w ws IH]; intros q F L q' r E; cbn [nexts] in E.
  - injection E as <- <-. constructor.
  - inversion F as [|? ? F1 F2]; subst.
    destruct (fqueue_next w q) as [[w1 q1] fd] eqn:En. destruct (nexts q1 ws) as [q2 r2] eqn:E2.
    injection E as <- <-. unfold fqueue_next in En.
    assert (TakeOk : forall q0, fq_events q0 = fq_events q -> (fq_next q0 < length (fq_events q))%nat ->
              forall q3 fd3, take_next w q0 = (q3, fd3) -> q3 = q1 ->
              handed (skipn (fq_next q0) (fq_events q)) (w :: ws) (fd3 :: r2)).
    { intros q0 Q0 L0 q3 fd3 T ->. unfold take_next in T.
      destruct (nth_error (fq_events q0) (fq_next q0)) as [[id ev]|] eqn:Nt.
      - injection T as <- <-. rewrite <- Q0, (skipn_nth _ _ _ Nt). apply hand_out.
        apply (IH _ F2) in E2; cbn [fq_next fq_events] in *; [exact E2 | rewrite Q0; lia].
      - apply nth_error_None in Nt. rewrite Q0 in Nt. lia. }
    destruct (Nat.eqb (length (fq_events q)) 0 || Nat.eqb (fq_next q) (length (fq_events q))) eqn:C.
    + injection En as <- <- <-. rewrite skipn_all2 by lia. apply hand_empty.
      apply (IH _ F2) in E2; [|exact L]. rewrite skipn_all2 in E2 by lia. exact E2.
    + destruct (Nat.eqb (fq_next q) 0) eqn:C0.
      * destruct (take_next w q) as [q3 fd3] eqn:T. injection En as <- <- <-. apply (TakeOk q eq_refl ltac:(lia) q3 fd3 T eq_refl).
      * unfold fqueue_filter in En.
        destruct (filter_from w (skipn (fq_next q) (fq_events q))) as [[w2 n] res] eqn:Ff.
        destruct (filter_data _ _ _ _ _ F1 Ff) as (-> & G1 & G2 & G3 & G4).
        apply (gone_many n); [exact G2 | exact G1 |]. rewrite skipn_length in G2, G3, G4.
        assert (Sk : skipn n (skipn (fq_next q) (fq_events q)) = skipn (fq_next q + n) (fq_events q)).
        { clear. generalize (fq_events q). generalize (fq_next q). intros m. induction m as [|m IHm]; intros l; [reflexivity|].
          destruct l as [|x l]; [now rewrite !skipn_nil|]. exact (IHm l). }
        rewrite Sk. destruct res.
        -- destruct (take_next w {| fq_events := fq_events q; fq_next := fq_next q + n |}) as [q3 fd3] eqn:T.
           injection En as <- <- <-. specialize (G3 eq_refl).
           apply (TakeOk (Fqueue (fq_events q) (fq_next q + n)) eq_refl ltac:(cbn; lia) q3 fd3 T eq_refl).
        -- injection En as <- <- <-. specialize (G4 eq_refl). rewrite skipn_all2 by lia. apply hand_empty.
           apply (IH _ F2) in E2; cbn [fq_next fq_events] in *; [|lia].
           rewrite skipn_all2 in E2 by lia. exact E2.
Qed.
Print Assumptions fq_events_handed_partial.

(* fevent does not give up events while there are some to hand out, and what
   it takes from the set is all there, but for packets of flows that are
   gone. *)
Theorem fq_collect_partial : forall w q batches w' q' more,
  has_data w -> fevent w q batches = (w', q', more, true) ->
  (fq_next q <= length (fq_events q))%nat ->
  w' = w /\ (fq_next q' < length (fq_events q'))%nat /\
  exists k, more = skipn k batches /\
    ((k = O /\ q' = q) \/
     (fq_next q = length (fq_events q) \/ fq_events q = []) /\
     (exists b, nth_error batches (k - 1) = Some b /\ (0 < k)%nat /\ fq_events q' = b) /\
     (forall j b i id ev, (j < k)%nat -> nth_error batches j = Some b -> nth_error b i = Some (id, ev) ->
        (S j < k)%nat \/ (i < fq_next q')%nat -> ev = FLOW_PKT /\ w id = None)).
Proof.
  intros w q batches w' q' more D E L. unfold fevent in E.
  destruct (negb (Nat.eqb (length (fq_events q)) 0) && negb (Nat.eqb (fq_next q) (length (fq_events q)))) eqn:C.
  { injection E as <- <- <-. split; [reflexivity|]. split; [lia|]. exists O. split; [reflexivity|]. left; auto. }
  assert (C' : fq_next q = length (fq_events q) \/ fq_events q = []).
  { destruct (fq_events q); [now right|]. left. cbn [length] in *. lia. }
  assert (G : forall bs q0 w' q' more, fevent_loop w q0 bs = (w', q', more, true) ->
    w' = w /\ (fq_next q' < length (fq_events q'))%nat /\
    exists k, more = skipn k bs /\
     (exists b, nth_error bs (k - 1) = Some b /\ (0 < k)%nat /\ fq_events q' = b) /\
     (forall j b i id ev, (j < k)%nat -> nth_error bs j = Some b -> nth_error b i = Some (id, ev) ->
        (S j < k)%nat \/ (i < fq_next q')%nat -> ev = FLOW_PKT /\ w id = None)).
  { clear - D. induction bs as [|b bs IH]; intros q0 w' q' more E; cbn [fevent_loop] in E; [discriminate|].
    unfold fqueue_filter in E. cbn [fq_next fq_events skipn] in E.
    destruct (filter_from w b) as [[w2 n] r] eqn:Ff.
    destruct (filter_data _ _ _ _ _ D Ff) as (-> & G1 & G2 & G3 & G4). cbn [Nat.add] in E.
    destruct r.
    - injection E as <- <- <-. cbn [fq_next fq_events]. split; [reflexivity|]. split; [auto|].
      exists 1%nat. split; [reflexivity|]. split; [exists b; repeat split; auto; lia|].
      intros j b0 i id ev Hj Hb Hi [X|X]; [lia|]. assert (j = O) by lia. subst j. cbn in Hb. injection Hb as <-.
      destruct (G1 i (id, ev) X Hi) as [Y1 Y2]. auto.
    - destruct (IH _ _ _ _ E) as (I1 & I2 & k & I3 & (b1 & I4 & I5 & I6) & I7).
      split; [exact I1|]. split; [exact I2|]. exists (S k). split; [exact I3|]. split.
      + exists b1. replace (S k - 1)%nat with (S (k - 1)) by lia. cbn [nth_error]. repeat split; auto; lia.
      + intros [|j] b0 i id ev Hj Hb Hi X; cbn in Hb.
        * injection Hb as <-. specialize (G4 eq_refl).
          assert (i < length b)%nat by (apply nth_error_Some; congruence).
          destruct (G1 i (id, ev) ltac:(lia) Hi) as [Y1 Y2]. auto.
        * apply (I7 j b0 i id ev); auto; lia. }
  destruct (G _ _ _ _ _ E) as (I1 & I2 & k & I3 & I4 & I5).
  split; [exact I1|]. split; [exact I2|]. exists k. split; [exact I3|]. right. auto.
Qed.
Print Assumptions fq_collect_partial.

(* Three flows: 1 without flow control, 2 with flow control and data, 3 is
   gone. *)
Definition w3 : world := fun id =>
  if id =? 1 then Some (Fstate 64 None)
  else if id =? 2 then Some (Fstate 65 (Some (true, []))) else None.

Example fq_handed_example :
  has_data w3 /\
  fevent w3 fqueue_create [[(3, 1); (1, 1); (3, 1); (2, 1); (3, 16)]; [(1, 1)]] =
    (w3, Fqueue [(3, 1); (1, 1); (3, 1); (2, 1); (3, 16)] 1, [[(1, 1)]], true) /\
  snd (nexts (Fqueue [(3, 1); (1, 1); (3, 1); (2, 1); (3, 16)] 1) [w3; w3; w3; w3]) = [64; 65; -1; -1].
Proof.
  split; [|split; reflexivity].
  intros id f rdy rx. unfold w3. destruct (id =? 1); [intros X; injection X as <-; discriminate|].
  destruct (id =? 2); [|discriminate]. intros X; injection X as <-. cbn. congruence.
Qed.

(* Something that the owner of the event would find on the flow. *)
Definition waits (w : world) (id ev : Z) : Prop :=
  exists f, w id = Some f /\
  match frct f with None => True | Some (rdy, rx) => rdy = true \/ In NextData rx end.

(* C67 in full: what fevent collects is handed out.  It is false: at the
   event of a flow with flow control of which the data was already read,
   fevent throws all events that come after it away. *)
Theorem fq_events_handed_refuted :
  ~ (forall w batches w1 q1 more b id ev,
       fevent w fqueue_create batches = (w1, q1, more, true) ->
       (forall id' f rdy rx, w id' = Some f -> frct f = Some (rdy, rx) -> ~ In Invalid rx) ->
       In b (firstn (length batches - length more) batches) -> In (id, ev) b -> waits w id ev ->
       exists n, In (descriptor w id) (snd (nexts q1 (repeat w1 n)))).
Proof.
  intros H.
  pose (w := (fun id => if id =? 1 then Some (Fstate 64 None)
                        else if id =? 2 then Some (Fstate 65 (Some (false, [])))
                        else if id =? 4 then Some (Fstate 66 None) else None) : world).
  destruct (H w [[(2, 1); (1, 1)]; [(4, 1)]] w (Fqueue [(4, 1)] 0) [] [(2, 1); (1, 1)] 1 1) as [n Hn].
  - reflexivity.
  - intros id f rdy rx. unfold w. destruct (id =? 1); [intros X; injection X as <-; discriminate|].
    destruct (id =? 2); [intros X; injection X as <-; cbn; intros Y; injection Y as <- <-; auto|].
    destruct (id =? 4); [intros X; injection X as <-; discriminate | discriminate].
  - cbn. auto.
  - cbn. auto.
  - exists (Fstate 64 None). split; [reflexivity | exact I].
  - change (descriptor w 1) with 64 in Hn.
    assert (A : forall m k, ~ In 64 (snd (nexts (Fqueue [(4, 1)] (S k)) (repeat w m))) \/ (k > 0)%nat).
    { induction m as [|m IH]; intros k; [now left|]. destruct k as [|k]; [left | right; lia].
      cbn [repeat nexts]. unfold fqueue_next. cbn [fq_events fq_next length Nat.eqb orb].
      destruct (IH O) as [X|X]; [|lia].
      destruct (nexts (Fqueue [(4, 1)] 1) (repeat w m)) as [q r]. cbn [snd] in *. intros [Y|Y]; [discriminate | auto]. }
    destruct n as [|n]; [exact Hn|]. cbn [repeat nexts] in Hn. unfold fqueue_next in Hn.
    cbn [fq_events fq_next length Nat.eqb orb take_next nth_error] in Hn. change (w 4) with (Some (Fstate 66 None)) in Hn.
    cbn [fd_of] in Hn. destruct (A n O) as [X|X]; [|lia].
    destruct (nexts (Fqueue [(4, 1)] 1) (repeat w n)) as [q r]. cbn [snd] in *.
    destruct Hn as [Y|Y]; [discriminate | auto].
Qed.
Print Assumptions fq_events_handed_refuted.

(* A process that waits for events and handles them, until fqueue_next has
   no more; n rounds.  The descriptors it got. *)
Fixpoint rounds (w : world) (q : fqueue) (batches : list (list fevt)) (n : nat) : fqueue * list (bool * Z) :=
  match n with
  | O => (q, [])
  | S n' => let '(w1, q1, more, r) := fevent w q batches in
            let '(w2, q2, fd) := fqueue_next w1 q1 in
            let (q3, l) := rounds w2 q2 more n' in (q3, (r, fd) :: l)
  end.

(* If the stale event is not the first one, the process spins: fevent
   returns at once, fqueue_next has nothing, and no event behind it nor any
   new event is ever handed out. *)
Theorem fq_stale_event_spins : forall w f id l1 e l2 batches n,
  w id = Some f -> frct f = Some (false, []) ->
  rounds w (Fqueue (l1 ++ e :: (id, FLOW_PKT) :: l2) (S (length l1))) batches n =
  (Fqueue (l1 ++ e :: (id, FLOW_PKT) :: l2) (S (length l1)), repeat (true, EPERM) n).
Proof.
  intros w f id l1 e l2 batches n Hw Hf. induction n as [|n IH]; [reflexivity|].
  cbn [rounds repeat]. unfold fevent. cbn [fq_events fq_next]. rewrite app_length. cbn [length].
  replace (negb (Nat.eqb (length l1 + S (S (length l2))) 0) &&
           negb (Nat.eqb (S (length l1)) (length l1 + S (S (length l2))))) with true by lia.
  unfold fqueue_next. cbn [fq_events fq_next]. rewrite app_length. cbn [length].
  replace (Nat.eqb (length l1 + S (S (length l2))) 0 ||
           Nat.eqb (S (length l1)) (length l1 + S (S (length l2)))) with false by lia.
  cbn [Nat.eqb]. unfold fqueue_filter. cbn [fq_events fq_next].
  replace (skipn (S (length l1)) (l1 ++ e :: (id, FLOW_PKT) :: l2)) with ((id, FLOW_PKT) :: l2).
  2:{ clear. induction l1; [reflexivity|]. exact IHl1. }
  cbn [filter_from]. change (negb (FLOW_PKT =? FLOW_PKT)) with false. cbv iota. rewrite Hw, Hf.
  rewrite Nat.add_0_r. rewrite IH. reflexivity.
Qed.
Print Assumptions fq_stale_event_spins.

(* Two packets arrive on a flow with flow control and one on another flow;
   the process reads both packets at the first event. *)
Example fq_stale_event_example :
  let before := (fun id => if id =? 1 then Some (Fstate 64 None)
                           else if id =? 2 then Some (Fstate 65 (Some (false, [NextData; NextData]))) else None) : world in
  let after := (fun id => if id =? 1 then Some (Fstate 64 None)
                          else if id =? 2 then Some (Fstate 65 (Some (false, []))) else None) : world in
  let '(w1, q1, more, r) := fevent before fqueue_create [[(2, 1); (2, 1); (1, 1)]] in
  let '(_, q2, fd) := fqueue_next w1 q1 in
  fd = 65 /\ rounds after q2 more 3 = (q2, [(true, EPERM); (true, EPERM); (true, EPERM)]).
Proof. split; reflexivity. Qed.

(* C67: after a descriptor was handed out, the type that is reported is the
   one of the event that it was handed out for; before that there is none. *)
Theorem fq_type_of_handed : forall w q w' q' fd,
  fqueue_next w q = (w', q', fd) -> fd <> EPERM ->
  fqueue_type fqueue_create = EPERM /\
  exists l1 id ev l2, fq_events q = l1 ++ (id, ev) :: l2 /\ fq_next q' = S (length l1) /\
    (fq_next q <= length l1)%nat /\ fd = descriptor w' id /\ fqueue_type q' = ev.
Proof.
  intros w q w' q' fd H N. split; [reflexivity|].
  assert (K : forall w1 n q2 x, take_next w1 (Fqueue (fq_events q) n) = (q2, x) -> x <> EPERM ->
     exists l1 id ev l2, fq_events q = l1 ++ (id, ev) :: l2 /\ fq_next q2 = S (length l1) /\
       length l1 = n /\ x = descriptor w1 id /\ fqueue_type q2 = ev).
  { intros w1 n q2 x T X. unfold take_next in T. cbn [fq_events fq_next] in T.
    destruct (nth_error (fq_events q) n) as [[id ev]|] eqn:E; [|injection T as <- <-; congruence].
    injection T as <- <-. destruct (nth_error_split _ _ E) as (l1 & l2 & S1 & S2).
    exists l1, id, ev, l2. split; [exact S1|]. cbn [fq_next]. split; [lia|]. split; [exact S2|].
    split; [reflexivity|]. unfold fqueue_type. cbn [fq_events fq_next].
    replace (S n - 1)%nat with n by lia. rewrite E. rewrite S1, app_length. cbn [length].
    destruct (Nat.eqb_spec (length l1 + S (length l2)) 0); [lia|]. destruct (Nat.eqb_spec (S n) 0); [lia|]. reflexivity. }
  unfold fqueue_next in H.
  destruct (Nat.eqb (length (fq_events q)) 0 || Nat.eqb (fq_next q) (length (fq_events q))); [injection H as <- <- <-; congruence|].
  destruct (Nat.eqb_spec (fq_next q) 0) as [Z|Z].
  - destruct (take_next w q) as [q1 x] eqn:T. injection H as <- <- <-. destruct q as [evs n]. cbn [fq_events fq_next] in *.
    destruct (K w n q1 x T N) as (l1 & id & ev & l2 & A & B & C & D). exists l1, id, ev, l2. split; [exact A|].
    split; [exact B|]. split; [lia|exact D].
  - unfold fqueue_filter in H. destruct (filter_from w (skipn (fq_next q) (fq_events q))) as [[w1 n] r].
    destruct r; [|injection H as <- <- <-; congruence].
    destruct (take_next w1 (Fqueue (fq_events q) (fq_next q + n))) as [q1 x] eqn:T. injection H as <- <- <-.
    destruct (K w1 _ q1 x T N) as (l1 & id & ev & l2 & A & B & C & D). exists l1, id, ev, l2. split; [exact A|].
    split; [exact B|]. split; [lia|exact D].
Qed.
Print Assumptions fq_type_of_handed.

Example fq_type_two :
  let w := (fun id => if id =? 1 then Some (Fstate 64 None) else if id =? 2 then Some (Fstate 65 None) else None) in
  let q := Fqueue [(1, 16); (2, 2)] 0 in
  exists q1 q2, fqueue_next w q = (w, q1, 64) /\ fqueue_type q1 = 16 /\
    fqueue_next w q1 = (w, q2, 65) /\ fqueue_type q2 = 2.
Proof. cbv zeta. eexists. eexists. repeat split. Qed.
