(* C44: reading a packet in pieces.  C66: packets are read whole, and are
   not mixed up. *)
From Coq Require Import NArith List Bool Arith Lia.
From Verif Require Import DevReadModel.
Import ListNotations.

Definition opened (nopart : bool) : rflow := Rflow true nopart NO_PART [].

Definition written (l : list rstep) : list (list N) :=
  flat_map (fun s => match s with Arrive p => [p] | _ => [] end) l.

Definition pieces (rs : list result) : list (list N) :=
  flat_map (fun r => match r with Bytes b => [b] | _ => [] end) rs.

(* C44 in full: with partial reads, as soon as reads of these sizes took as
   many bytes as the packet has, what they returned is the packet. *)
Definition partial_reads_complete : Prop :=
  forall pkt counts f rs,
    Forall (fun c => c > 0) counts -> list_sum counts >= length pkt ->
    rrun (opened false) (Arrive pkt :: map ReadCall counts) = (f, rs) ->
    concat (pieces rs) = pkt.

Theorem dev_partial_read_refuted : ~ partial_reads_complete.
Proof.
  intros H.
  assert (C : concat (pieces [Bytes [1]; Bytes []])%N = [1; 2]%N).
  { apply (H [1; 2]%N [1; 1] (Rflow true false NO_PART []) [Bytes [1]; Bytes []]%N).
    - repeat constructor.
    - cbn. lia.
    - reflexivity. }
  discriminate C.
Qed.
Print Assumptions dev_partial_read_refuted.

(* In every case: a read that is too short for the packet is followed by one
   that says the packet has ended, and then by the next packet; the rest of
   the packet is lost. *)
Theorem dev_short_read_loses : forall q pkt c c2 c3,
  c < length pkt -> 0 < c2 ->
  let (f1, r1) := flow_read (Rflow true false NO_PART (pkt :: q)) c in
  let (f2, r2) := flow_read f1 c2 in
  r1 = Bytes (firstn c pkt) /\ r2 = Bytes [] /\
  flow_read f2 c3 = flow_read (Rflow true false NO_PART q) c3.
Proof.
  intros q pkt c c2 c3 H H2. unfold flow_read at 1. cbn [allocated part_idx ready negb].
  unfold read_packet. cbn [nopart allocated negb andb].
  replace (Nat.leb (length pkt) c) with false by (symmetry; apply Nat.leb_gt; lia).
  unfold flow_read at 1. cbn [allocated part_idx ready negb]. unfold head_release. rewrite skipn_all.
  unfold read_packet. cbn [length Nat.leb nopart allocated negb andb ready].
  destruct c2 as [|c2]; [lia|]. cbn [Nat.eqb]. auto.
Qed.
Print Assumptions dev_short_read_loses.

Example dev_short_read_example :
  rrun (opened false) [Arrive [1; 2; 3; 4]; Arrive [5]; ReadCall 3; ReadCall 3; ReadCall 3]%N =
  (Rflow true false NO_PART [], [Bytes [1; 2; 3]; Bytes []; Bytes [5]])%N.
Proof. reflexivity. Qed.

(* What the reads of a history returned, and what they took: packet by
   packet, the first bytes as far as the buffer went. *)
Definition started (p : part) : Prop := match p with Part (_ :: _) => False | _ => True end.

(* C44, the part that holds, and C66: over every history of arrivals and
   reads with buffers of any size, each packet that was taken off the flow
   was returned once, in order, from its first byte, as far as the buffer
   went; other reads return nothing.  No read mixes two packets. *)
Theorem dev_partial_read_partial : forall l f rs,
  rrun (opened false) l = (f, rs) ->
  exists taken : list (list N * nat),
    written l = map fst taken ++ ready f /\
    filter (fun b => negb (Nat.eqb (length b) 0)) (pieces rs) =
    filter (fun b => negb (Nat.eqb (length b) 0)) (map (fun x => firstn (snd x) (fst x)) taken).
Proof.
  assert (G : forall l g f rs, allocated g = true -> nopart g = false -> started (part_idx g) -> rrun g l = (f, rs) ->
    exists taken : list (list N * nat),
      ready g ++ written l = map fst taken ++ ready f /\
      filter (fun b => negb (Nat.eqb (length b) 0)) (pieces rs) =
      filter (fun b => negb (Nat.eqb (length b) 0)) (map (fun x => firstn (snd x) (fst x)) taken)).
  { induction l as [|s l IH]; intros g f rs A Np St E; cbn [rrun] in E.
    - injection E as <- <-. exists []. cbn. rewrite app_nil_r. auto.
    - destruct (rstep_run g s) as [f1 o1] eqn:E1. destruct (rrun f1 l) as [f2 o2] eqn:E2.
      injection E as <- <-. destruct s as [pkt|c]; cbn [rstep_run] in E1.
      + injection E1 as <- <-. destruct (IH (Rflow (allocated g) (nopart g) (part_idx g) (ready g ++ [pkt])) _ _ A Np St E2) as (tk & T1 & T2). exists tk.
        cbn [ready] in T1. cbn [written flat_map app] in *. rewrite <- T1, <- app_assoc. auto.
      + destruct (flow_read g c) as [g1 r] eqn:Er. injection E1 as <- <-.
        unfold flow_read in Er. rewrite A in Er. cbn [negb] in Er.
        assert (Empty : forall p q, g1 = Rflow true false p q -> started p -> q = ready g ->
                  (r = Bytes [] \/ r = EAGAIN) ->
                  exists taken : list (list N * nat),
                    ready g ++ written (ReadCall c :: l) = map fst taken ++ ready f2 /\
                    filter (fun b => negb (Nat.eqb (length b) 0)) (pieces ([r] ++ o2)) =
                    filter (fun b => negb (Nat.eqb (length b) 0)) (map (fun x => firstn (snd x) (fst x)) taken)).
        { intros p q -> Sp -> R. destruct (IH (Rflow true false p _) _ _ eq_refl eq_refl Sp E2) as (tk & T1 & T2). exists tk.
          split; [exact T1|]. destruct R as [-> | ->]; exact T2. }
        assert (Rp : forall pkt q, read_packet g q pkt c = (g1, r) ->
                  exists p b, g1 = Rflow true false p q /\ started p /\ r = Bytes b /\ b = firstn c pkt).
        { intros pkt q R. unfold read_packet in R. rewrite A, Np in R. cbn [negb] in R.
          destruct (Nat.leb (length pkt) c) eqn:L.
          - injection R as <- <-. eexists. eexists. split; [reflexivity|].
            split; [destruct (length pkt =? c); exact I|]. split; [reflexivity|].
            apply Nat.leb_le in L. rewrite firstn_all2; auto.
          - injection R as <- <-. do 2 eexists. split; [reflexivity|].
            split; [unfold head_release; rewrite skipn_all; exact I|]. auto. }
        destruct (part_idx g) as [| |pkt] eqn:Ep.
        * destruct (ready g) as [|pkt q] eqn:Eq.
          -- injection Er as <- <-. apply (Empty NO_PART []); auto.
             destruct g; cbn in *; congruence.
          -- destruct (Rp _ _ Er) as (p & b & -> & Sp & -> & ->).
             destruct (IH (Rflow true false p _) _ _ eq_refl eq_refl Sp E2) as (tk & T1 & T2). exists ((pkt, c) :: tk).
             cbn [ready] in T1. cbn [written flat_map app map fst snd] in *. split; [now rewrite <- T1|].
             cbn [filter pieces flat_map app]. rewrite <- T2. reflexivity.
        * injection Er as <- <-. apply (Empty NO_PART (ready g)); auto.
          rewrite ?A, ?Np. reflexivity.
        * destruct pkt as [|x pkt]; [|contradiction St].
          destruct (Rp _ _ Er) as (p & b & -> & Sp & -> & ->). rewrite firstn_nil in Empty |- *.
          apply (Empty p (ready g)); auto. }
  intros l f rs E. destruct (G l (opened false) f rs eq_refl eq_refl I E) as (tk & T1 & T2). exists tk. auto.
Qed.
Print Assumptions dev_partial_read_partial.

Example dev_partial_read_example :
  rrun (opened false) [Arrive [1; 2; 3; 4]; Arrive [5; 6]; ReadCall 4; ReadCall 4; ReadCall 1; Arrive [7]; ReadCall 9; ReadCall 9]%N =
  (Rflow true false NO_PART [], [Bytes [1; 2; 3; 4]; Bytes []; Bytes [5]; Bytes []; Bytes [7]])%N.
Proof. reflexivity. Qed.

(* C66: with buffers that are large enough, the packets themselves, and an
   end mark exactly after a packet that filled its buffer. *)
Theorem dev_whole_reads : forall q c,
  Forall (fun p => length p <= c) q ->
  forall f rs, rrun (Rflow true true NO_PART q) (map ReadCall (repeat c (length q))) = (f, rs) ->
  rs = map Bytes q /\ ready f = [] /\ part_idx f = NO_PART.
Proof.
  induction q as [|p q IH]; intros c F f rs E.
  - cbn in E. injection E as <- <-. auto.
  - inversion F as [|? ? F1 F2]; subst. cbn [length repeat map rrun rstep_run] in E.
    unfold flow_read in E. cbn [allocated part_idx ready negb] in E.
    unfold read_packet in E. cbn [nopart allocated negb andb] in E.
    replace (Nat.leb (length p) c) with true in E by (symmetry; apply Nat.leb_le; lia).
    destruct (rrun (Rflow true true NO_PART q) (map ReadCall (repeat c (length q)))) as [f2 o2] eqn:E2.
    injection E as <- <-. destruct (IH c F2 f2 o2 E2) as (-> & H2 & H3). auto.
Qed.
Print Assumptions dev_whole_reads.

(* Without partial reads a packet that does not fit is refused and lost, the
   packets after it are not affected. *)
Theorem dev_whole_read_too_long : forall q p c, c < length p ->
  flow_read (Rflow true true NO_PART (p :: q)) c = (Rflow true true NO_PART q, EMSGSIZE).
Proof.
  intros q p c H. unfold flow_read. cbn [allocated part_idx ready negb]. unfold read_packet.
  replace (Nat.leb (length p) c) with false by (symmetry; apply Nat.leb_gt; lia). reflexivity.
Qed.
Print Assumptions dev_whole_read_too_long.

Example dev_whole_example :
  rrun (Rflow true true NO_PART [[1; 2]; [3]])%N (map ReadCall [2; 2]) =
  (Rflow true true NO_PART [], [Bytes [1; 2]; Bytes [3]])%N.
Proof. reflexivity. Qed.

(* C66 over every history: a queue of packets.  A read takes the oldest
   packet that was not read; it returns the packet whole, or refuses it if
   it is longer than the buffer; it returns EAGAIN only if there is none. *)
Fixpoint reads_of_queue (q : list (list N)) (l : list rstep) : list result :=
  match l with
  | [] => []
  | Arrive p :: l' => reads_of_queue (q ++ [p]) l'
  | ReadCall c :: l' =>
      match q with
      | [] => EAGAIN :: reads_of_queue [] l'
      | p :: q' => (if Nat.leb (length p) c then Bytes p else EMSGSIZE) :: reads_of_queue q' l'
      end
  end.

Theorem dev_whole_history : forall l, snd (rrun (opened true) l) = reads_of_queue [] l.
Proof.
  assert (G : forall l q, snd (rrun (Rflow true true NO_PART q) l) = reads_of_queue q l).
  { induction l as [|[p|c] l IH]; intros q; [reflexivity| |].
    - cbn [rrun rstep_run reads_of_queue allocated nopart part_idx ready]. rewrite <- IH.
      destruct (rrun (Rflow true true NO_PART (q ++ [p])) l). reflexivity.
    - cbn [rrun rstep_run reads_of_queue]. unfold flow_read. cbn [allocated part_idx ready negb].
      destruct q as [|p q].
      + rewrite <- IH. destruct (rrun (Rflow true true NO_PART []) l). reflexivity.
      + unfold read_packet. cbn [nopart allocated negb andb part_idx].
        destruct (Nat.leb (length p) c); rewrite <- IH;
          destruct (rrun (Rflow true true NO_PART q) l); reflexivity. }
  intros l. apply G.
Qed.
Print Assumptions dev_whole_history.

Example dev_whole_history_example :
  reads_of_queue [] [Arrive [1; 2; 3]; Arrive [4]; ReadCall 2; Arrive [5; 6]; ReadCall 2; ReadCall 2; ReadCall 2]%N =
  [EMSGSIZE; Bytes [4]; Bytes [5; 6]; EAGAIN]%N.
Proof. reflexivity. Qed.

(* Whole reads never split or mix packets: what is returned is a packet that
   arrived. *)
Theorem dev_whole_nothing_made_up : forall l b,
  In (Bytes b) (snd (rrun (opened true) l)) -> In b (written l).
Proof.
  assert (G : forall l q b, In (Bytes b) (reads_of_queue q l) -> In b (q ++ written l)).
  { induction l as [|[p|c] l IH]; intros q b H; cbn [reads_of_queue written flat_map] in *; [contradiction| |].
    - apply IH in H. rewrite <- app_assoc in H. exact H.
    - destruct q as [|p q].
      + destruct H as [H|H]; [discriminate|]. apply (IH [] b H).
      + destruct H as [H|H].
        * destruct (Nat.leb (length p) c); [|discriminate]. injection H as <-. now left.
        * right. apply (IH q b H). }
  intros l b. rewrite dev_whole_history. apply (G l []).
Qed.
Print Assumptions dev_whole_nothing_made_up.
