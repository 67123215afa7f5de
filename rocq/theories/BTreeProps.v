(** Properties C11 and C12: the B-tree as a map from keys to values. *)
From Coq Require Import List Arith NArith Bool Lia.
From Verif Require Import BTreeModel BTreeSpec BTreeProofs BTreeProofs2 BTreeProofs3 BTreeProofs4.
Import ListNotations.
Open Scope nat_scope.

(** ** C11: insertions and removals

    Full statement: every history of insertions and removals gives the results of
    the map, keeps exactly its entries, in order, and stays within the arrays.
    That is false: see [btree_remove_absent_refuted].  It holds for every history
    in which there are few attempts to remove absent keys between two successful
    removals. *)
Theorem btree_exact_map_partial : forall k ops,
  4 <= k -> few_absent (k / 2 - 1) 0 [] ops ->
  exists t, tree_run (btree_create k) ops = Some (t, snd (spec_run [] ops)) /\
    holds t (fst (spec_run [] ops)).
Proof.
  intros k ops Hk Hf.
  destruct (tree_run_spec k Hk ops 0 _ [] (create_ok k) Hf) as (t & cnt & E & _ & _ & Hh).
  exists t. split; [exact E|exact Hh].
Qed.

(** In particular for insertions and removals of present keys only. *)
Fixpoint only_present (m : smap) (ops : list uop) : Prop :=
  match ops with
  | [] => True
  | UInsert key val :: r => only_present (fst (spec_insert m key val)) r
  | URemove key :: r => lookup m key <> None /\ only_present (fst (spec_remove m key)) r
  end.
Theorem btree_exact_map_present_partial : forall k ops,
  4 <= k -> only_present [] ops ->
  exists t, tree_run (btree_create k) ops = Some (t, snd (spec_run [] ops)) /\
    holds t (fst (spec_run [] ops)).
Proof.
  intros k ops Hk Hp. apply btree_exact_map_partial; [exact Hk|].
  assert (G : forall ops m, only_present m ops -> few_absent (k / 2 - 1) 0 m ops).
  { clear. induction ops as [|o ops IH]; intros m H; [exact I|]. cbn [few_absent only_present] in *.
    destruct o as [a b|a]; cbn [spec_step].
    - destruct (spec_insert m a b) as [m1 b1]. apply IH. exact H.
    - destruct H as (H1 & H). unfold spec_remove in *. destruct m as [|p m]; [contradiction H1; reflexivity|].
      destruct (lookup (p :: m) a); [|contradiction]. cbn [fst] in H. split; [apply Nat.le_0_l|]. apply IH. exact H. }
  apply G. exact Hp.
Qed.

Definition ins_upto (n : nat) : list uop := map (fun i => UInsert (4 * N.of_nat i) 7) (seq 1 n).
(** 53 keys are inserted; then present and absent keys are removed; the last
    removal is outside the arrays: merge is called with index SIZE_MAX. *)
Definition bad_removes : list uop := map URemove
  [8;20;32;44;56;68;80;92;104;116;128;140;152;164;176;188;200;212;149;160;156;185;196;192;
   113;41;52;48;77;88;84;5;209;41;101;149;5;185;5]%N.
Theorem btree_remove_absent_refuted :
  ~ (forall k ops, 4 <= k -> exists t bs, tree_run (btree_create k) ops = Some (t, bs)).
Proof.
  intro H. destruct (H 4 (ins_upto 53 ++ bad_removes) (le_n 4)) as (t & bs & E).
  assert (Q : match tree_run (btree_create 4) (ins_upto 53 ++ bad_removes) with
              | None => True | Some _ => False end) by (vm_compute; exact I).
  rewrite E in Q. exact Q.
Qed.

(** ** C12: lookups

    Full statement: a lookup returns the value of the key in the map, and NULL
    for an absent key.  That is false after removals. *)
Theorem btree_lookup_removed_refuted :
  ~ (forall k ops t bs key, 4 <= k -> tree_run (btree_create k) ops = Some (t, bs) ->
       lookup (fst (spec_run [] ops)) key = None -> btree_search t key = Some 0%N).
Proof.
  intro H.
  pose (ops := [UInsert 1 11; UInsert 2 12; URemove 2]%N).
  specialize (H 4 ops).
  destruct (tree_run (btree_create 4) ops) as [[t bs]|] eqn:E; [|vm_compute in E; discriminate].
  specialize (H t bs 2%N (le_n 4) eq_refl eq_refl).
  assert (Q : match tree_run (btree_create 4) ops with
              | Some (t, _) => btree_search t 2 = Some 12%N | None => False end) by (vm_compute; reflexivity).
  rewrite E in Q. congruence.
Qed.
(** A key that was removed and inserted again is found with its old value. *)
Theorem btree_lookup_old_value_refuted :
  ~ (forall k ops t bs key v, 4 <= k -> tree_run (btree_create k) ops = Some (t, bs) ->
       lookup (fst (spec_run [] ops)) key = Some v -> btree_search t key = Some v).
Proof.
  intro H.
  pose (ops := [UInsert 1 11; UInsert 2 12; UInsert 3 13; UInsert 4 14; UInsert 5 15; UInsert 6 16;
                UInsert 7 17; URemove 5; URemove 7; URemove 6; UInsert 6 99]%N).
  specialize (H 4 ops).
  destruct (tree_run (btree_create 4) ops) as [[t bs]|] eqn:E; [|vm_compute in E; discriminate].
  specialize (H t bs 6%N 99%N (le_n 4) eq_refl eq_refl).
  assert (Q : match tree_run (btree_create 4) ops with
              | Some (t, _) => btree_search t 6 = Some 16%N | None => False end) by (vm_compute; reflexivity).
  rewrite E in Q. congruence.
Qed.

(** Lookups are exact for every key that was never removed. *)
Theorem btree_lookup_never_removed_partial : forall k ops key,
  4 <= k -> few_absent (k / 2 - 1) 0 [] ops -> key <> 0%N -> ~ In (URemove key) ops ->
  exists t bs, tree_run (btree_create k) ops = Some (t, bs) /\
    btree_search t key = Some (spec_search (fst (spec_run [] ops)) key).
Proof.
  intros k ops key Hk Hf Hz Hn.
  destruct (run_cur k ops Hk key 0 (btree_create k) [] (create_ok k) Hf Hn I)
    as (t & cnt & E & (Ho & Hr & Hh) & Ha).
  exists t, (snd (spec_run [] ops)). split; [exact E|].
  set (m := fst (spec_run [] ops)) in *. unfold btree_search, spec_search, tree_all in *.
  destruct Hh as (Hinc & Hin). unfold contents in *.
  destruct (root t) as [n|] eqn:Er; [|rewrite Hr; reflexivity].
  destruct Hr as ((h & W & _ & _) & _). rewrite (wf_depth _ _ _ W).
  destruct (lookup m key) as [v|] eqn:El.
  - apply Hin in El as Hv.
    destruct (search_present k Hk (cur key m) h (S h) n key v (Nat.lt_succ_diag_r h) W Hinc Ha Hv) as (w & Ew & Pw).
    rewrite Ew. destruct (Pw eq_refl) as [Q|Q]; cbn in Q; congruence.
  - destruct (search_total k Hk h (S h) n key (Nat.lt_succ_diag_r h) W Hinc) as (w & Ew).
    rewrite Ew. destruct (search_all (cur key m) (S h) n key w Ha Ew) as [->|Q]; [reflexivity|].
    destruct (Q eq_refl) as [Q'|Q']; cbn in Q'; congruence.
Qed.

(** In every history, on every order: a lookup returns NULL or a value that was
    passed to an insertion of that key. *)
Theorem btree_lookup_origin_partial : forall k ops t bs key v,
  tree_run (btree_create k) ops = Some (t, bs) -> btree_search t key = Some v -> v <> 0%N ->
  In (UInsert key v) ops.
Proof.
  intros k ops t bs key v E Es Hv.
  pose (P := fun e : kv => e = (0, 0)%N \/ In (UInsert (fst e) (snd e)) ops).
  assert (Ha : tree_all P t).
  { apply (tree_run_all ops P (btree_create k) t bs); [left; reflexivity| |exact I|exact E].
    intros a b Hin _. right. exact Hin. }
  unfold btree_search, tree_all in *. destruct (root t) as [n|]; [|congruence].
  destruct (search_all P _ n key v Ha Es) as [Q|[Q|Q]]; [congruence|congruence|exact Q].
Qed.

(** A lookup of a present key never misses it. *)
Theorem btree_lookup_present_partial : forall k ops key v,
  4 <= k -> few_absent (k / 2 - 1) 0 [] ops -> key <> 0%N ->
  lookup (fst (spec_run [] ops)) key = Some v ->
  exists t bs w, tree_run (btree_create k) ops = Some (t, bs) /\ btree_search t key = Some w /\
    w <> 0%N /\ In (UInsert key w) ops.
Proof.
  intros k ops key v Hk Hf Hz El.
  destruct (tree_run_spec k Hk ops 0 _ [] (create_ok k) Hf) as (t & cnt & E & Ho & Hr & Hinc & Hin).
  exists t, (snd (spec_run [] ops)).
  pose (P := fun e : kv => e = (0, 0)%N \/ snd e <> 0%N /\ In (UInsert (fst e) (snd e)) ops).
  assert (Ha : tree_all P t).
  { apply (tree_run_all ops P (btree_create k) t (snd (spec_run [] ops))); [left; reflexivity| |exact I|exact E].
    intros a b Hi Z. right. split; [exact Z|exact Hi]. }
  apply Hin in El. unfold btree_search, tree_all, contents in *.
  destruct (root t) as [n|] eqn:Er; [|contradiction El].
  destruct Hr as ((h & W & _ & _) & _). rewrite (wf_depth _ _ _ W).
  destruct (search_present k Hk P h (S h) n key v (Nat.lt_succ_diag_r h) W Hinc Ha El) as (w & Ew & Pw).
  exists w. split; [exact E|]. split; [exact Ew|].
  destruct Pw as [Q|(Q1 & Q2)]; [congruence|]. split; assumption.
Qed.

(** ** The hypotheses are met *)
Definition demo : list uop := ins_upto 40 ++ map (fun i => URemove (8 * N.of_nat i)) (seq 1 15)
  ++ [URemove 3; UInsert 16 9; URemove 20; URemove 1000; UInsert 16 10]%N.
Example few_absent_demo : few_absent (4 / 2 - 1) 0 [] demo.
Proof. vm_compute. repeat split; repeat constructor. Qed.
Example demo_runs : match tree_run (btree_create 4) demo with
  | Some (t, bs) => length (contents t) = 25 /\ length bs = 60 /\ depth (match root t with Some n => n | None => btnode_create 4 end) = 3
  | None => False end.
Proof. vm_compute. repeat split. Qed.
Example only_present_demo : only_present [] (ins_upto 12 ++ map (fun i => URemove (8 * N.of_nat i)) (seq 1 6)).
Proof. vm_compute. repeat split; discriminate. Qed.
Example never_removed_demo : ~ In (URemove 12) demo.
Proof. vm_compute. intro H. repeat (destruct H as [H|H]; [discriminate|]). exact H. Qed.

Print Assumptions btree_exact_map_partial.
Print Assumptions btree_exact_map_present_partial.
Print Assumptions btree_remove_absent_refuted.
Print Assumptions btree_lookup_removed_refuted.
Print Assumptions btree_lookup_old_value_refuted.
Print Assumptions btree_lookup_never_removed_partial.
Print Assumptions btree_lookup_origin_partial.
Print Assumptions btree_lookup_present_partial.
