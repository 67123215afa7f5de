(* C62 for the routing policies with more than one next hop. *)
From Coq Require Import NArith ZArith List Bool Lia Sorted Arith.
From Verif Require Import GraphModel GraphSpec GraphProofs3 GraphProofs5 GraphProofs6 GraphProps LsModel
  LsSpec LsProofs LsProofs2 LsProofs3 LsProofs4 LsProofs5 LsProps.
Import ListNotations.

(* The flows to use for a list of next hops: that of each hop with a data
   transfer connection, in the order of the hops. *)
Inductive flows_to (ns : list nb) : list N -> list N -> Prop :=
| ft_nil : flows_to ns [] []
| ft_skip : forall h hs fds, (forall fd, ~ In (Nb h fd NB_DT) ns) -> flows_to ns hs fds -> flows_to ns (h :: hs) fds
| ft_hop : forall h fd hs fds, In (Nb h fd NB_DT) ns -> flows_to ns hs fds -> flows_to ns (h :: hs) (fd :: fds).

Lemma nhop_fds_flows : forall ns hs i fds, StronglySorted nb_lt ns -> nhop_fds ns i hs = Ok fds ->
  forall fds', flows_to ns hs fds' <-> fds' = fds.
Proof.
  intros ns hs. induction hs as [|h hs IH]; intros i fds Hs E fds'; cbn [nhop_fds] in E.
  - assert (fds = []) as -> by congruence. split; [intros H; now inversion H | intros ->; constructor].
  - destruct (nbr_to_fd ns h) as [fd|] eqn:Ef.
    + destruct (Z.leb PROG_MAX_FLOWS i); [discriminate|].
      destruct (nhop_fds ns (i + 1) hs) as [r| |] eqn:Er; cbn in E; try discriminate.
      assert (fds = fd :: r) as -> by congruence.
      pose proof Ef as Ef'. apply nbr_to_fd_iff in Ef'; auto. split.
      * intros H. inversion H as [|? ? ? Hn Hf|? fd' ? fds0 Hi Hf]; subst.
        -- exfalso. exact (Hn fd Ef').
        -- apply nbr_to_fd_iff in Hi; auto. apply (IH _ _ Hs Er) in Hf. congruence.
      * intros ->. apply ft_hop; auto. now apply (IH _ _ Hs Er).
    + split.
      * intros H. inversion H as [|? ? ? Hn Hf|? fd' ? fds0 Hi Hf]; subst.
        -- now apply (IH _ _ Hs E).
        -- apply nbr_to_fd_iff in Hi; auto. congruence.
      * intros ->. apply ft_skip; [|now apply (IH _ _ Hs E)].
        intros fd Hi. apply nbr_to_fd_iff in Hi; auto. congruence.
Qed.

Lemma fwd_entries_flows : forall ns t f, StronglySorted nb_lt ns -> fwd_entries ns t = Ok f ->
  forall d fds, In (d, fds) f <-> fds <> [] /\ exists hs, In (d, hs) t /\ flows_to ns hs fds.
Proof.
  intros ns t. induction t as [|[d0 hs0] t IH]; intros f Hs E d fds; cbn [fwd_entries] in E.
  - assert (f = []) as -> by congruence. split; [contradiction | intros (_ & hs & [] & _)].
  - destruct (nhop_fds ns 0 hs0) as [fds0| |] eqn:E0; cbn [rbind] in E; try discriminate.
    destruct (fwd_entries ns t) as [f1| |] eqn:E1; cbn [rbind] in E; try discriminate.
    pose proof (nhop_fds_flows ns hs0 0 fds0 Hs E0) as F. specialize (IH f1 Hs eq_refl d fds).
    assert (X : In (d, fds) f <-> (fds0 <> [] /\ d = d0 /\ fds = fds0) \/ In (d, fds) f1).
    { destruct fds0 as [|x fds0]; assert (f = _) as -> by (symmetry; injection E as E; exact E).
      - split; [auto | intros [(H & _)|H]; [congruence | auto]].
      - cbn [In]. split.
        + intros [H|H]; [left | auto]. split; [discriminate|]. split; congruence.
        + intros [(_ & -> & ->)|H]; auto. }
    rewrite X, IH. split.
    + intros [(H1 & -> & ->)|(H1 & hs & H2 & H3)].
      * split; auto. exists hs0. split; [now left|]. now apply F.
      * split; auto. exists hs. split; [now right | auto].
    + intros (H1 & hs & [H2|H2] & H3).
      * left. assert (hs = hs0) by congruence. assert (d = d0) by congruence. subst hs d.
        apply F in H3. subst fds0. auto.
      * right. split; auto. exists hs. auto.
Qed.

(* Whatever the policy: when a pending change is processed, the forwarding
   table has, for each destination of the routing table, one flow for each
   next hop with a data transfer connection; destinations without such a
   hop have no entry. *)
Theorem ls_forwarding_multi_partial : forall ovf l l' o t, state_of ovf l -> modified l = true ->
  ls_step ovf l Recalc = Ok (l', o) ->
  graph_routing_table ovf (gr l) (policy l) (own l) = Ok t ->
  nbs l' = nbs l /\ forall d fds, In (d, fds) (fwd l') <->
    fds <> [] /\ exists hs, In (d, hs) t /\ flows_to (nbs l') hs fds.
Proof.
  intros ovf l l' o t Hl M E Et. apply state_inv in Hl as (_ & Hs). cbn [ls_step] in E.
  destruct (recalc ovf l) as [l2| |] eqn:Ea; cbn in E; try discriminate.
  assert (l' = l2) by congruence. subst l2. unfold recalc in Ea. rewrite M in Ea.
  pose proof (calculate_same _ _ _ Ea) as (S1 & S2 & S3 & _).
  cbn [own policy nbs with_mod] in S1, S2, S3.
  unfold calculate_pff in Ea. cbn [gr policy own nbs with_mod] in Ea. rewrite Et in Ea.
  destruct (fwd_entries (nbs l) t) as [f| |] eqn:Ef; cbn in Ea; try discriminate.
  assert (fwd l' = f) as -> by (injection Ea as <-; reflexivity).
  split; [exact S3|]. intros d fds. rewrite S3. now apply fwd_entries_flows.
Qed.
Print Assumptions ls_forwarding_multi_partial.

(* A square 1-2-4-3-1 with equal cost paths from 1 to 4: two flows. *)
Example ls_forwarding_multi_example :
  match ls_run wrap (ls_init 1 ROUTING_ECMP)
    [DtAdd 2 12 0; DtAdd 3 13 0; Recv 21 (Lsm 2 1 0) 0; Recv 21 (Lsm 2 4 0) 0; Recv 21 (Lsm 4 2 0) 0;
     Recv 21 (Lsm 3 1 0) 0; Recv 21 (Lsm 3 4 0) 0; Recv 21 (Lsm 4 3 0) 0]%N with
  | Ok (l, _) => modified l = true /\
      match graph_routing_table wrap (gr l) (policy l) (own l), ls_step wrap l Recalc with
      | Ok t, Ok (l', _) => exists h1 h2 f1 f2, In (4, [h1; h2])%N t /\ In (4, [f1; f2])%N (fwd l')
      | _, _ => False
      end
  | _ => False
  end.
Proof. vm_compute. split; [reflexivity|]. do 4 eexists. split; auto. Qed.
