(* Whether a message can bring a node of the directory down (property C71). *)
From Coq Require Import NArith ZArith List Bool Lia Arith.
From Coq Require Import ZifyBool ZifyNat ZifyN.
From Verif Require Import DhtModel DhtStoreModel DhtBucketModel DhtMsgModel.
From Verif Require DhtBucketProps.
Import ListNotations.
Open Scope N_scope.

(* -- Specification ----------------------------------------------------------- *)

(* Messages arrive at these times. *)
Fixpoint run (n : node) (h : list (Z * msg)) : res node :=
  match h with
  | [] => Ok n
  | (t, m) :: h' => match handle_packet t n m with Bad => Bad | Ok n' => run n' h' end
  end.

(* A message as the code itself sends them: one of the five kinds; ids, keys
   and contact ids have b bytes; the sender's id is there except for
   KAD_JOIN; a search has a key; one contact at most in a store; no more than
   k addresses. *)
Definition wellformed (b : nat) (m : msg) : Prop :=
  m_code m < 5 /\
  (m_code m <> KAD_JOIN -> exists i, m_s_id m = Some i /\ length i = b) /\
  (m_code m = KAD_FIND_NODE \/ m_code m = KAD_FIND_VALUE ->
     exists i, m_key m = Some i /\ length i = b) /\
  (forall i a, In (i, a) (m_contacts m) -> length i = b) /\
  (m_code m = KAD_STORE -> (length (m_contacts m) <= 1)%nat) /\
  (length (m_addrs m) <= KAD_K)%nat.

(* A node that has just started: nothing stored, no contacts; requests and
   lookups of its own, no addresses yet. *)
Definition fresh (n : node) : Prop :=
  n_tree n = bucket_create /\ forall lu, In lu (n_lookups n) -> l_addrs lu = [].

(* -- Proofs -------------------------------------------------------------------- *)

Lemma read_id_ok : forall b l, length l = b -> read_id b (Some l) = Ok l.
Proof.
  intros b l <-. cbn [read_id]. rewrite Nat.ltb_irrefl, firstn_all. reflexivity.
Qed.

Lemma read_contacts_ok : forall b cs, (forall i a, In (i, a) cs -> length i = b) ->
  read_contacts b cs = Ok cs.
Proof.
  induction cs as [|[i a] cs IH]; intros H; [reflexivity|]. cbn [read_contacts].
  rewrite (read_id_ok b i (H i a (or_introl eq_refl))).
  rewrite (IH (fun j c Hj => H j c (or_intror Hj))). reflexivity.
Qed.

Definition small (l : list lookup) : Prop :=
  forall lu, In lu l -> (length (l_addrs lu) <= KAD_K)%nat.

Lemma update_lookups_ok : forall b k code m l,
  (forall i a, In (i, a) (m_contacts m) -> length i = b) ->
  (length (m_addrs m) <= KAD_K)%nat -> small l ->
  exists r, update_lookups b k code m l = Ok r /\ small r.
Proof.
  intros b k code m l Hc Ha. induction l as [|lu l IH]; intros Hs; cbn [update_lookups].
  - exists []. split; [reflexivity|intros ? []].
  - assert (H0 := Hs lu (or_introl eq_refl)).
    assert (Hl : small l) by (intros x X; apply Hs; right; exact X).
    destruct (existsb (N.eqb (m_cookie m)) (l_cookies lu)).
    + assert (S1 : (length (l_addrs (fst (lookup_update1 lu (m_cookie m) (m_addrs m)))) <= KAD_K)%nat).
      { unfold lookup_update1. destruct (l_state lu), (m_addrs m) as [|x xs]; cbn [fst l_addrs];
          try exact H0; destruct (l_addrs lu); auto. }
      destruct (lookup_update1 lu (m_cookie m) (m_addrs m)) as [lu1 go]. cbn [fst] in S1.
      destruct go.
      * rewrite (read_contacts_ok b _ Hc). eexists. split; [reflexivity|].
        intros x [<-|X]; [|exact (Hl x X)]. unfold lookup_update2.
        destruct (add_contacts k (l_key lu1) (l_contacts lu1) (l_n lu1) false (m_contacts m))
          as [[q1 q2] q3]. exact S1.
      * destruct (Nat.ltb_spec KAD_K (length (l_addrs lu1))) as [L|L]; [lia|].
        rewrite andb_false_r. eexists. split; [reflexivity|].
        intros x [<-|X]; [exact S1|exact (Hl x X)].
    + destruct (IH Hl) as [r [R1 R2]]. rewrite R1. exists (lu :: r). split; [reflexivity|].
      intros x [<-|X]; [exact H0|exact (R2 x X)].
Qed.

(* The tree is one bucket with different addresses among the known ones. *)
Definition flat (known : list N) (t : bucket) : Prop :=
  exists cs, t = Leaf cs [] /\ NoDup (map c_addr cs) /\ incl (map c_addr cs) known /\
             (forall c, In c cs -> c_fails c = 0).

Lemma update_flat : forall k b self known t id a,
  (length known <= k)%nat -> In a known -> flat known t ->
  exists t', dht_update_bucket k b self t id a = Some t' /\ flat known t'.
Proof.
  intros k b self known t id a Hk Ha [cs [-> [Hn [Hi Hf]]]].
  assert (Hl : exists la : N -> option ident,
             forall x i, In (contact_create i x) cs <-> la x = Some i).
  { clear -Hn Hf. induction cs as [|c cs IH].
    - exists (fun _ => None). intros x i. split; [intros []|discriminate].
    - cbn in Hn. inversion Hn as [|? ? N1 N2]; subst.
      destruct (IH N2 (fun c H => Hf c (or_intror H))) as [la L].
      exists (fun x => if c_addr c =? x then Some (c_id c) else la x).
      assert (F := Hf c (or_introl eq_refl)).
      intros x i. destruct (N.eqb_spec (c_addr c) x) as [E|E].
      + subst x. split.
        * intros [H|H]; [rewrite H; reflexivity|]. exfalso. apply N1.
          change (c_addr c) with (c_addr (contact_create i (c_addr c))). apply in_map. exact H.
        * intros H. injection H as <-. left. destruct c. cbn in *. subst. reflexivity.
      + rewrite <- L. split; [intros [H|H]; [rewrite H in E; contradiction|exact H]|].
        intros H. right. exact H. }
  destruct Hl as [la L].
  destruct (DhtBucketProps.few_leaf k b self known [(id, a)] cs la Hk) as [cs' [R [N1 [N2 [N3 _]]]]].
  - intros x [<-|[]]. exact Ha.
  - exact Hn.
  - exact Hi.
  - exact Hf.
  - exact L.
  - cbn [DhtBucketProps.run] in R.
    destruct (dht_update_bucket k b self (Leaf cs []) id a) as [t1|] eqn:E; [|discriminate].
    injection R as ->. exists (Leaf cs' []). split; [reflexivity|].
    exists cs'. auto.
Qed.

Lemma flat_list : forall k known t key, flat known t ->
  exists l, dht_contact_list k t key = Some l.
Proof.
  intros k known t key [cs [-> _]]. eexists. reflexivity.
Qed.

Definition fine (known : list N) (n : node) : Prop :=
  flat known (n_tree n) /\ small (n_lookups n).

Lemma handle_fine : forall now known n m,
  (length known <= n_k n)%nat -> In (m_s_addr m) known ->
  wellformed (n_b n) m -> fine known n ->
  exists n', handle_packet now n m = Ok n' /\ fine known n' /\ n_b n' = n_b n /\ n_k n' = n_k n.
Proof.
  intros now known n m Hk Ha [W1 [W2 [W3 [W4 [W5 W6]]]]] [F1 F2].
  unfold handle_packet. destruct (bad_key n m || bad_s_id n m).
  - exists n. split; [reflexivity|]. split; [split; assumption|auto].
  - assert (Tail : forall n1, fine known n1 -> n_b n1 = n_b n -> n_k n1 = n_k n ->
       m_code m <> KAD_JOIN ->
       exists n', note_sender n1 m = Ok n' /\ fine known n' /\ n_b n' = n_b n /\ n_k n' = n_k n).
    { intros n1 [G1 G2] Eb Ek Hj. destruct (W2 Hj) as [i [I1 I2]].
      unfold note_sender. rewrite I1, read_id_ok by congruence.
      destruct (update_flat (n_k n1) (n_b n1) (n_id n1) known (n_tree n1) i (m_s_addr m))
        as [t [T1 T2]]; [congruence|exact Ha|exact G1|].
      rewrite T1. eexists. split; [reflexivity|]. split; [split; [exact T2|exact G2]|auto]. }
    destruct (N.eqb_spec (m_code m) KAD_JOIN) as [J|J].
    + exists n. split; [reflexivity|]. split; [split; assumption|auto].
    + destruct (N.eqb_spec (m_code m) KAD_FIND_VALUE) as [V|V];
        [|destruct (N.eqb_spec (m_code m) KAD_FIND_NODE) as [V2|V2]]; cbn [orb].
      * destruct W3 as [i [I1 I2]]; [right; exact V|].
        unfold handle_find. rewrite I1, read_id_ok by exact I2. rewrite V, N.eqb_refl.
        destruct (flat_list (n_k n) known (n_tree n) i F1) as [l L]. rewrite L.
        destruct (dht_retrieve (n_store n) i); apply Tail; auto; split; assumption.
      * destruct W3 as [i [I1 I2]]; [left; exact V2|].
        unfold handle_find. rewrite I1, read_id_ok by exact I2. rewrite V2.
        change (KAD_FIND_NODE =? KAD_FIND_VALUE) with false. cbv iota.
        destruct (flat_list (n_k n) known (n_tree n) i F1) as [l L]. rewrite L.
        apply Tail; auto; split; assumption.
      * destruct (N.eqb_spec (m_code m) KAD_STORE) as [Q|Q].
        -- unfold handle_store. specialize (W5 Q).
           destruct (m_contacts m) as [|[i a] rest]; [apply Tail; auto; split; assumption|].
           destruct (m_expire m) as [x|]; [|apply Tail; auto; split; assumption].
           destruct rest; [|cbn in W5; lia].
           rewrite read_id_ok by exact (W4 i a (or_introl eq_refl)).
           apply Tail; auto; split; assumption.
        -- destruct (N.eqb_spec (m_code m) KAD_RESPONSE) as [R|R].
           ++ unfold handle_response.
              destruct (take_request (n_reqs n) (m_cookie m)) as [[code reqs]|];
                [|apply Tail; auto; split; assumption].
              destruct (update_lookups_ok (n_b n) (n_k n) code m (n_lookups n) W4 W6 F2) as [r [R1 R2]].
              rewrite R1. apply Tail; auto. split; [exact F1|exact R2].
           ++ exfalso. unfold KAD_JOIN, KAD_FIND_NODE, KAD_FIND_VALUE, KAD_STORE, KAD_RESPONSE in *. lia.
Qed.

(* -- Theorems -------------------------------------------------------------------- *)

(* The full property C71 is: whatever messages arrive, handling them is never
   undefined behaviour: forall h, run n h <> Bad.  It is refuted below.  What
   holds: messages such as the code itself sends, from no more than k
   members. *)
Theorem dht_messages_partial : forall n known h,
  fresh n -> (length known <= n_k n)%nat ->
  (forall t m, In (t, m) h -> wellformed (n_b n) m /\ In (m_s_addr m) known) ->
  exists n', run n h = Ok n'.
Proof.
  intros n known h [F1 F2] Hk Hh.
  assert (Fi : fine known n).
  { split; [rewrite F1; exists []; repeat split; [constructor|intros ? []|intros ? []]|].
    intros lu H. rewrite (F2 lu H). cbn. lia. }
  clear F1 F2. revert n Fi Hk Hh. induction h as [|[t m] h IH]; intros n Fi Hk Hh.
  - exists n. reflexivity.
  - cbn [run]. destruct (Hh t m (or_introl eq_refl)) as [W A].
    destruct (handle_fine t known n m Hk A W Fi) as [n1 [E [G [B K]]]]. rewrite E.
    apply IH; [exact G|lia|]. intros t' m' H. rewrite B. apply (Hh t' m'). right. exact H.
Qed.
Print Assumptions dht_messages_partial.

(* One message is enough: a search without a key; any message but KAD_JOIN
   without the sender's id; a store of two addresses; an unknown kind; a
   sender's id shorter than the hash that comes with a hash length; an answer
   with nine addresses to a query; a contact with a short id. *)
Definition wself : ident := [0;0;0;0;0;0;0;0].
Definition wnode : node :=
  Node_ 8 KAD_K wself (Dht [] 7 86400 KAD_T_REPL) bucket_create [(5, KAD_FIND_VALUE)]
        [Lookup wself [] 0 [5] [] LU_PENDING].
Definition sid : option (list N) := Some [1;1;1;1;1;1;1;1].

Definition no_key : msg := Msg KAD_FIND_NODE 1 9 sid None [] [] false None.
Definition no_sender : msg := Msg KAD_STORE 1 9 None None [] [] false None.
Definition two_contacts : msg :=
  Msg KAD_STORE 1 9 sid None [] [(wself, 3); (wself, 4)] false (Some 60%Z).
Definition bad_kind : msg := Msg 5 1 9 sid None [] [] false None.
Definition short_sender : msg := Msg KAD_RESPONSE 1 9 (Some [1]) None [] [] true None.
Definition nine_addrs : msg := Msg KAD_RESPONSE 5 9 sid None [1;2;3;4;5;6;7;8;9] [] false None.
Definition short_contact : msg := Msg KAD_RESPONSE 5 9 sid None [] [([1], 3)] false None.

Theorem dht_messages_refuted :
  fresh wnode /\
  forall m, In m [no_key; no_sender; two_contacts; bad_kind; short_sender; nine_addrs; short_contact] ->
    run wnode [(0%Z, m)] = Bad.
Proof.
  split.
  - split; [reflexivity|]. intros lu [<-|[]]. reflexivity.
  - intros m H. cbn in H. repeat (destruct H as [<-|H]; [vm_compute; reflexivity|]). destruct H.
Qed.
Print Assumptions dht_messages_refuted.

(* Non-vacuous: a store, a search for it, an answer. *)
Example dht_messages_case :
  let st := Msg KAD_STORE 1 9 sid None [] [(wself, 3)] false (Some 60%Z) in
  let fv := Msg KAD_FIND_VALUE 2 9 sid (Some wself) [] [] false None in
  let rs := Msg KAD_RESPONSE 5 9 sid None [3; 4] [] false None in
  (forall m, In m [st; fv; rs] -> wellformed 8 m) /\
  match run wnode [(0%Z, st); (1%Z, fv); (2%Z, rs)] with
  | Ok n => dht_retrieve (n_store n) wself = Some (Address 3) /\ n_reqs n = [] /\
            map l_addrs (n_lookups n) = [[3; 4]]
  | Bad => False
  end.
Proof.
  cbv zeta. split.
  - intros m H. cbn in H.
    destruct H as [<-|[<-|[<-|[]]]]; (split; [reflexivity|]);
      (split; [intros _; eexists; split; reflexivity|]);
      (split; [intros [H|H]; try discriminate; eexists; split; reflexivity|]);
      (split; [intros i a [H|H]; [injection H as <- _; reflexivity|destruct H]
              |split; [intros _; cbn; lia|vm_compute; lia]]) ||
      (split; [intros i a []|split; [intros H; discriminate|vm_compute; lia]]).
  - vm_compute. repeat split.
Qed.

(* C71: a message with a key, or an identifier of its sender, that does not
   have the length of the identifiers of this directory changes nothing (an
   identifier only if the message does not bring its own length). *)
Theorem dht_wrong_length_dropped : forall t n m,
  (exists l, m_key m = Some l /\ length l <> n_b n) \/
  (exists l, m_s_id m = Some l /\ m_has_b m = false /\ length l <> n_b n) ->
  handle_packet t n m = Ok n.
Proof.
  intros t n m H. unfold handle_packet.
  assert (B : bad_key n m || bad_s_id n m = true).
  { unfold bad_key, bad_s_id. destruct H as [(l & E & L)|(l & E & X & L)]; rewrite E.
    - destruct (Nat.eqb_spec (length l) (n_b n)); [contradiction|reflexivity].
    - rewrite X. destruct (Nat.eqb_spec (length l) (n_b n)); [contradiction|]. apply orb_true_r. }
  rewrite B. reflexivity.
Qed.
Print Assumptions dht_wrong_length_dropped.

Example dht_wrong_length_case :
  handle_packet 0%Z wnode (Msg KAD_FIND_VALUE 2 9 sid (Some [1; 2]) [] [] false None) = Ok wnode.
Proof. vm_compute. reflexivity. Qed.
