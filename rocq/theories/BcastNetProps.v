(** A broadcast layer as a whole: what one packet does in a network of
    nodes that each send it on to all other neighbours. *)
From Coq Require Import List Bool Arith Lia FinFun Permutation.
From Verif Require Import BcastModel BcastSpec.
Import ListNotations.

Section Layer.
Variable links : nat -> list nat.
Hypothesis Pr : proper links.

Lemma sym : forall u v, In v (links u) -> In u (links v).
Proof. apply Pr. Qed.

(** Walks that do not turn back. *)
Inductive wk : list nat -> Prop :=
| wk1 v : wk [v]
| wk2 v u : In v (links u) -> wk [v; u]
| wk3 v u z l : In v (links u) -> v <> z -> wk (u :: z :: l) -> wk (v :: u :: z :: l).

Lemma wk_walk : forall l, wk l -> walk links l.
Proof.
  induction 1; [constructor|constructor; [assumption|constructor]|constructor; assumption].
Qed.
Lemma wk_tl : forall v u l, wk (v :: u :: l) -> wk (u :: l).
Proof. intros v u l H. inversion H; subst; [constructor|assumption]. Qed.
Lemma wk_link : forall v u l, wk (v :: u :: l) -> In v (links u).
Proof. intros v u l H. inversion H; subst; assumption. Qed.

(** Two walks from the same node that part there make one walk. *)
Lemma wk_join : forall l1 v l2, wk (v :: l1) -> wk (v :: l2) ->
  (forall a b, hd_error l1 = Some a -> hd_error l2 = Some b -> a <> b) ->
  wk (rev l1 ++ v :: l2).
Proof.
  induction l1 as [|a l1 IH]; intros v l2 A B D; [exact B|].
  cbn [rev]. rewrite <- app_assoc. cbn [app]. apply IH.
  - apply wk_tl in A. exact A.
  - pose proof (wk_link _ _ _ A) as L. apply sym in L. destruct l2 as [|b l2].
    + apply wk2. exact L.
    + apply wk3; [exact L|apply D; reflexivity|exact B].
  - intros x y X Y. injection Y as <-. inversion A; subst; [discriminate X|].
    cbn in X. injection X as <-. congruence.
Qed.

(** * Without cycles *)

Lemma prefix_walk : forall a b, walk links (a ++ b) -> a <> [] -> walk links a.
Proof.
  induction a as [|x a IH]; intros b H N; [congruence|].
  destruct a as [|y a]; [constructor|]. cbn in H. inversion H; subst. constructor; [assumption|].
  apply (IH b); [assumption|discriminate].
Qed.

Lemma wk_simple : acyclic links -> forall l, wk l -> NoDup l.
Proof.
  intros Ac. induction l as [|x l IH]; intros W; [constructor|].
  destruct l as [|y l]; [constructor; [tauto|constructor]|].
  assert (N : NoDup (y :: l)) by (apply IH; eapply wk_tl; exact W).
  constructor; [|exact N]. intros X. apply in_split in X. destruct X as (a & b & E).
  assert (NX : ~ In x a).
  { rewrite E in N. apply NoDup_remove_2 in N. rewrite in_app_iff in N. tauto. }
  apply (Ac x a). rewrite E in W. split; [|split].
  - destruct a as [|a1 [|a2 a]]; [| |cbn; lia].
    + cbn in W. pose proof (wk_link _ _ _ W) as L. destruct Pr as (_ & _ & P3). elim (P3 x L).
    + cbn in W. inversion W; subst. congruence.
  - constructor; [exact NX|]. rewrite E in N. clear - N.
    induction a as [|c a IH]; [constructor|]. cbn in N. inversion N; subst. constructor.
    + intros Q. apply H1. apply in_or_app. left. exact Q.
    + apply IH. assumption.
  - replace (x :: a ++ x :: b) with ((x :: a ++ [x]) ++ b) in W by (cbn; rewrite <- app_assoc; reflexivity).
    apply wk_walk in W. apply prefix_walk in W; [exact W|discriminate].
Qed.

Lemma last_cons : forall (a b : nat) l d, last (a :: b :: l) d = last (b :: l) d.
Proof. reflexivity. Qed.
Lemma last_in : forall (l : list nat) d, l <> [] -> In (last l d) l.
Proof.
  induction l as [|a l IH]; intros d H; [congruence|]. destruct l as [|b l]; [left; reflexivity|].
  rewrite last_cons. right. apply IH. discriminate.
Qed.
Lemma last_any : forall (l : list nat) d e, l <> [] -> last l d = last l e.
Proof.
  induction l as [|a l IH]; intros d e H; [congruence|]. destruct l as [|b l]; [reflexivity|].
  rewrite !last_cons. apply IH. discriminate.
Qed.

Lemma wk_unique : acyclic links -> forall l1 l2 v s d, wk (v :: l1) -> wk (v :: l2) ->
  last (v :: l1) d = s -> last (v :: l2) d = s -> l1 = l2.
Proof.
  intros Ac. induction l1 as [|a l1 IH]; intros l2 v s d A B E1 E2.
  - destruct l2 as [|b l2]; [reflexivity|]. exfalso. cbn in E1. subst v.
    pose proof (wk_simple Ac _ B) as N. inversion N; subst. apply H1. rewrite last_cons in E2.
    assert (I : In (last (b :: l2) d) (b :: l2)) by (apply last_in; discriminate). rewrite E2 in I. exact I.
  - destruct l2 as [|b l2].
    + exfalso. cbn in E2. subst v. pose proof (wk_simple Ac _ A) as N. inversion N; subst. apply H1.
      rewrite last_cons in E1.
      assert (I : In (last (a :: l1) d) (a :: l1)) by (apply last_in; discriminate). rewrite E1 in I. exact I.
    + destruct (Nat.eq_dec a b) as [E|E].
      * subst b. f_equal. apply (IH l2 a s d); [eapply wk_tl; exact A|eapply wk_tl; exact B|exact E1|exact E2].
      * exfalso. assert (W : wk (rev (a :: l1) ++ v :: b :: l2)).
        { apply wk_join; [exact A|exact B|]. intros x y X Y. cbn in X, Y. congruence. }
        pose proof (wk_simple Ac _ W) as N.
        rewrite last_cons in E1, E2.
        assert (I1 : In s (rev (a :: l1))).
        { apply in_rev. rewrite rev_involutive. rewrite <- E1. apply last_in. discriminate. }
        assert (I2 : In s (b :: l2)) by (rewrite <- E2; apply last_in; discriminate).
        apply in_split in I1. destruct I1 as (p & q & Q). rewrite Q in N. rewrite <- app_assoc in N. cbn in N.
        apply NoDup_remove_2 in N. apply N. apply in_or_app. right. apply in_or_app. right. right. exact I2.
Qed.

(** From a walk a simple one, and from a simple one one that does not turn
    back. *)
Lemma walk_suffix : forall a b, walk links (a ++ b) -> b <> [] -> walk links b.
Proof.
  induction a as [|x a IH]; intros b H N; [exact H|]. apply IH; [|exact N].
  cbn in H. inversion H; subst; [|assumption]. destruct a; [|discriminate]. cbn in *. congruence.
Qed.
Lemma walk_simple : forall l v, walk links (v :: l) ->
  exists l', walk links (v :: l') /\ NoDup (v :: l') /\ forall d, last (v :: l') d = last (v :: l) d.
Proof.
  induction l as [|u l IH]; intros v W.
  - exists []. split; [exact W|]. split; [constructor; [tauto|constructor]|reflexivity].
  - inversion W; subst. destruct (IH u) as (l' & W' & N' & L'); [assumption|].
    destruct (in_dec Nat.eq_dec v (u :: l')) as [I|I].
    + apply in_split in I. destruct I as (a & b & E). exists b. rewrite E in W', N'. split; [|split].
      * apply walk_suffix in W'; [exact W'|discriminate].
      * clear - N'. induction a as [|x a IHa]; [exact N'|]. cbn in N'. inversion N'; subst. apply IHa. assumption.
      * intros d. rewrite (last_cons v u l). rewrite <- L', E. clear. induction a as [|x a IHa]; [reflexivity|].
        cbn [app]. destruct (a ++ v :: b) eqn:Q; [destruct a; discriminate|]. rewrite last_cons. exact IHa.
    + exists (u :: l'). split; [constructor; assumption|]. split; [constructor; assumption|].
      intros d. rewrite !last_cons. apply L'.
Qed.
Lemma simple_wk : forall l, walk links l -> NoDup l -> wk l.
Proof.
  induction 1 as [v|v u l H W IH]; intros N; [constructor|].
  inversion N; subst. destruct l as [|z l]; [apply wk2; exact H|].
  apply wk3; [exact H| |apply IH; assumption]. intros E. subst. apply H2. right. left. reflexivity.
Qed.

(** * The invariant of a broadcast *)

Variable s : nat.

Definition all (x : net) : list (list nat) := flight x ++ got x.

Lemma forward_in : forall v u l t, In t (forward links (v :: u :: l)) <->
  exists w, t = w :: v :: u :: l /\ In w (links v) /\ w <> u.
Proof.
  intros. unfold forward, dt_packet. rewrite map_map, in_map_iff. cbn [fst snd]. split.
  - intros (w & E & I). apply filter_In in I. destruct I as (I & N). rewrite negb_true_iff, Nat.eqb_neq in N.
    exists w. split; [congruence|]. split; assumption.
  - intros (w & E & I & N). exists w. split; [congruence|]. apply filter_In. split; [exact I|].
    rewrite negb_true_iff, Nat.eqb_neq. exact N.
Qed.
Lemma forward_nodup : forall t, NoDup (forward links t).
Proof.
  intros [|v [|u l]]; try constructor. unfold forward, dt_packet. rewrite map_map. cbn [fst snd].
  apply Injective_map_NoDup; [intros a b Q; congruence|]. apply NoDup_filter. apply Pr.
Qed.

Record inv (k : nat) (x : net) : Prop := Inv {
  i_wk : forall t, In t (all x) -> wk t /\ last t 0 = s /\ exists v u l, t = v :: u :: l;
  i_nd : NoDup (all x);
  i_down : forall t w u l, (t = [s] \/ In t (got x)) -> In w (links (hd 0 t)) ->
             (t = [s] \/ (t = hd 0 t :: u :: l /\ w <> u)) -> In (w :: t) (all x);
  i_up : forall t, In t (all x) -> exists w p, t = w :: p /\ (p = [s] \/ In p (got x));
  i_len : length (got x) = k
}.

Lemma NoDup_move : forall (A : Type) (a b g : list A) t f,
  NoDup ((a ++ t :: b) ++ g) -> NoDup f -> (forall z, In z f -> ~ In z ((a ++ t :: b) ++ g)) ->
  NoDup ((a ++ b ++ f) ++ t :: g).
Proof.
  intros A a b g t f N F D.
  apply (Permutation_NoDup (l := f ++ ((a ++ t :: b) ++ g))).
  - rewrite <- !app_assoc. cbn [app].
    apply Permutation_trans with (a ++ f ++ t :: b ++ g).
    + rewrite !app_assoc. apply Permutation_app_tail. apply Permutation_app_comm.
    + apply Permutation_app_head.
      apply Permutation_trans with (t :: b ++ f ++ g).
      * apply Permutation_trans with (t :: f ++ b ++ g).
        -- symmetry. apply Permutation_middle.
        -- constructor. rewrite !app_assoc. apply Permutation_app_tail. apply Permutation_app_comm.
      * rewrite !app_assoc. apply Permutation_middle.
  - clear - N F D. induction f as [|z f IH]; [exact N|]. inversion F; subst. cbn. constructor.
    + rewrite in_app_iff. intros [Q|Q]; [contradiction|]. apply (D z); [left; reflexivity|exact Q].
    + apply IH; [assumption|]. intros y Y. apply D. right. exact Y.
Qed.

Lemma inv_all : forall k x, moves links s k x -> inv k x.
Proof.
  induction 1 as [|k x y M IH Mv].
  - constructor; unfold all, inject; cbn [flight got]; rewrite ?app_nil_r.
    + intros t T. apply in_map_iff in T. destruct T as (w & <- & W). split; [apply wk2; exact W|].
      split; [reflexivity|]. exists w, s, []. reflexivity.
    + apply Injective_map_NoDup; [intros a b Q; congruence|]. apply Pr.
    + intros t w u l [->|[]] W _. cbn in W. apply in_map_iff. exists w. split; [reflexivity|exact W].
    + intros t T. apply in_map_iff in T. destruct T as (w & <- & W). exists w, [s]. split; [reflexivity|left; reflexivity].
    + reflexivity.
  - destruct Mv as [a t b g].
    assert (It : In t (all (Net (a ++ t :: b) g))).
    { unfold all. cbn. apply in_or_app. left. apply in_or_app. right. left. reflexivity. }
    destruct (i_wk _ _ IH t It) as (Wt & Lt & v & u & l & Et).
    assert (Ng : ~ In t g).
    { pose proof (i_nd _ _ IH) as N. unfold all in N. cbn in N. rewrite <- app_assoc in N. cbn in N.
      apply NoDup_remove_2 in N. rewrite !in_app_iff in N. tauto. }
    assert (Nf : forall z, In z (forward links t) -> ~ In z (all (Net (a ++ t :: b) g))).
    { intros z Z. rewrite Et in Z. apply forward_in in Z. destruct Z as (w & -> & Wi & Wn). rewrite <- Et.
      intros Q. destruct (i_up _ _ IH _ Q) as (w' & p & E & Hp). injection E as <- <-.
      destruct Hp as [Hp|Hp]; [rewrite Et in Hp; discriminate|]. cbn in Hp. contradiction. }
    assert (Sub : forall z, In z (all (Net (a ++ t :: b) g)) \/ In z (forward links t) <->
                            In z (all (Net (a ++ b ++ forward links t) (t :: g)))).
    { intros z. unfold all. cbn [flight got]. rewrite !in_app_iff. cbn. rewrite ?in_app_iff. tauto. }
    constructor.
    + intros z Z. apply Sub in Z. destruct Z as [Z|Z]; [apply (i_wk _ _ IH z Z)|].
      rewrite Et in Z. apply forward_in in Z. destruct Z as (w & -> & Wi & Wn). subst t.
      split; [apply wk3; assumption|]. split; [rewrite last_cons; exact Lt|]. eauto.
    + apply NoDup_move; [apply (i_nd _ _ IH)|apply forward_nodup|]. exact Nf.
    + intros t' w u' l' T' W K. apply Sub. cbn [got In] in T'.
      destruct (list_eq_dec Nat.eq_dec t' t) as [E|E].
      * right. subst t'. destruct K as [K|(K & Kn)]; [rewrite Et in K; discriminate|].
        rewrite Et in *. cbn [hd] in *. injection K as <- <-. apply forward_in. exists w.
        split; [reflexivity|]. split; assumption.
      * left. apply (i_down _ _ IH t' w u' l'); [|exact W|exact K]. cbn [got].
        destruct T' as [T'|[T'|T']]; [left; exact T'|congruence|right; exact T'].
    + intros z Z. apply Sub in Z. cbn [got In]. destruct Z as [Z|Z].
      * destruct (i_up _ _ IH z Z) as (w & p & E & Hp). cbn in Hp. exists w, p. split; [exact E|tauto].
      * rewrite Et in Z. apply forward_in in Z. destruct Z as (w & -> & _). rewrite <- Et.
        exists w, t. split; [reflexivity|]. tauto.
    + pose proof (i_len _ _ IH) as Z. cbn in Z. cbn. lia.
Qed.

(** Every walk from the source that does not turn back was taken when no
    packet is on its way. *)
Lemma quiet_all : forall k x, moves links s k x -> flight x = [] ->
  forall t u l, t = u :: l -> l <> [] -> wk t -> last t 0 = s -> In t (got x).
Proof.
  intros k x M Q. pose proof (inv_all k x M) as I.
  induction t as [|w t IH]; intros u l E N W L; [discriminate|]. injection E as <- <-.
  assert (A : In (w :: t) (all x)).
  { destruct t as [|v t]; [congruence|]. destruct t as [|z t].
    - cbn in L. subst v. apply (i_down _ _ I [s] w 0 []); [left; reflexivity| |left; reflexivity].
      apply wk_link in W. exact W.
    - apply (i_down _ _ I (v :: z :: t) w z t).
      + right. apply (IH v (z :: t)); [reflexivity|discriminate|eapply wk_tl; exact W|exact L].
      + apply wk_link in W. exact W.
      + right. split; [reflexivity|]. inversion W; subst. assumption. }
  unfold all in A. rewrite Q in A. exact A.
Qed.

Lemma got_heads : acyclic links -> forall k x, moves links s k x -> NoDup (s :: map (hd 0) (got x)).
Proof.
  intros Ac k x M. pose proof (inv_all k x M) as I.
  assert (N : NoDup (got x)).
  { pose proof (i_nd _ _ I) as N. unfold all in N. clear - N. induction (flight x) as [|z f IH]; [exact N|].
    inversion N; subst. apply IH. assumption. }
  assert (Wk : forall t, In t (got x) -> wk t /\ last t 0 = s /\ exists v u l, t = v :: u :: l).
  { intros t T. apply (i_wk _ _ I). unfold all. apply in_or_app. right. exact T. }
  constructor.
  - intros H. apply in_map_iff in H. destruct H as (t & E & T). destruct (Wk t T) as (W & L & v & u & l & ->).
    cbn in E. subst v. pose proof (wk_simple Ac _ W) as D. inversion D; subst. apply H1.
    rewrite last_cons in L.
    assert (J : In (last (u :: l) 0) (u :: l)) by (apply last_in; discriminate). rewrite L in J. exact J.
  - clear M I. revert Wk N. generalize (got x). intros g. induction g as [|t g IH]; intros Wk N; [constructor|].
    inversion N; subst. cbn. constructor.
    + intros H. apply in_map_iff in H. destruct H as (t' & E & T').
      destruct (Wk t (or_introl eq_refl)) as (W & L & v & u & l & Et).
      destruct (Wk t' (or_intror T')) as (W' & L' & v' & u' & l' & Et').
      rewrite Et, Et' in E. cbn in E. subst v'. rewrite Et in W, L. rewrite Et' in W', L'.
      pose proof (wk_unique Ac _ _ _ _ 0 W W' L L') as U. apply H1. rewrite Et, U, <- Et'. exact T'.
    + apply IH; [|assumption]. intros t' T'. apply Wk. right. exact T'.
Qed.

End Layer.

Lemma walk_in : forall links nodes, covers links nodes -> forall l, walk links l -> forall d, In (last l d) nodes -> In (hd d l) nodes.
Proof.
  intros links nodes (_ & C). induction 1 as [v|v u l H W IH]; intros d L; [exact L|].
  cbn [hd]. rewrite (last_cons v u l d) in L. apply IH in L. cbn in L. apply (C u); assumption.
Qed.

(** C89 (broadcast in a tree).  In a layer without cycles, when one node
    sends a packet: at every moment every node has received it at most
    once, and the sender never; no more packets are received than there
    are other nodes, so it comes to an end; and when nothing is on its way
    any more, every other node has received it exactly once. *)
Theorem broadcast_exactly_once :
  forall links nodes s k x, proper links -> covers links nodes -> connected links nodes -> acyclic links ->
  In s nodes -> moves links s k x ->
  (forall v, received v x <= 1) /\ received s x = 0 /\ k < length nodes /\
  (flight x = [] -> forall v, In v nodes -> v <> s -> received v x = 1).
Proof.
  intros links nodes s k x Pr Cv Cn Ac Sn M.
  pose proof (got_heads links Pr s Ac k x M) as N. pose proof (inv_all links Pr s k x M) as I.
  inversion N as [|? ? N1 N2]; subst.
  assert (H1 : forall v, received v x <= 1).
  { intros v. unfold received. apply NoDup_count_occ. exact N2. }
  assert (Hd : forall v, In v (map (hd 0) (got x)) -> In v nodes).
  { intros v V. apply in_map_iff in V. destruct V as (t & <- & T).
    destruct (i_wk _ _ _ _ I t) as (W & L & a & b & l & ->); [unfold all; apply in_or_app; right; exact T|].
    apply (walk_in links nodes Cv _ (wk_walk _ _ W)). rewrite L. exact Sn. }
  split; [exact H1|]. split; [|split].
  - unfold received. apply count_occ_not_In. exact N1.
  - assert (Le : length (s :: map (hd 0) (got x)) <= length nodes).
    { apply NoDup_incl_length; [exact N|]. intros v [<-|V]; [exact Sn|apply Hd; exact V]. }
    cbn in Le. rewrite map_length, (i_len _ _ _ _ I) in Le. lia.
  - intros Q v V Ne. destruct (Cn s v Sn V) as (l & W & L).
    destruct (walk_simple links l v W) as (l' & W' & D & L').
    assert (Wk : wk links (v :: l')) by (apply simple_wk; assumption).
    assert (Nl : l' <> []).
    { intros E. subst l'. specialize (L' v). rewrite L in L'. cbn in L'. congruence. }
    assert (Ls : last (v :: l') 0 = s).
    { rewrite (last_any _ 0 v) by discriminate. rewrite L'. exact L. }
    pose proof (quiet_all links Pr s k x M Q (v :: l') v l' eq_refl Nl Wk Ls) as T.
    assert (P : received v x > 0).
    { unfold received. apply count_occ_In. apply in_map_iff. exists (v :: l'). split; [reflexivity|exact T]. }
    specialize (H1 v). lia.
Qed.
Print Assumptions broadcast_exactly_once.

(** * With a cycle *)

Lemma last_app_one : forall (l : list nat) a d, last (l ++ [a]) d = a.
Proof.
  induction l as [|b l IH]; intros a d; [reflexivity|]. cbn [app].
  destruct (l ++ [a]) eqn:E; [destruct l; discriminate|]. rewrite last_cons, <- E. apply IH.
Qed.

(** Going around: a walk that does not turn back, of any length. *)
Section Around.
Variable links : nat -> list nat.
Variable x : nat.
Variable a : list nat.
Hypothesis Cy : cycle links x a.

Lemma wk_append : forall l1 u v l2, wk links (l1 ++ [u; v]) -> wk links (u :: v :: l2) -> wk links (l1 ++ u :: v :: l2).
Proof.
  induction l1 as [|b l1 IH]; intros u v l2 A B; [exact B|].
  destruct l1 as [|c l1].
  - cbn in *. inversion A; subst. apply wk3; assumption.
  - specialize (IH u v l2). cbn [app] in *. destruct (l1 ++ [u; v]) as [|e m] eqn:E; [destruct l1; discriminate|].
    destruct (l1 ++ u :: v :: l2) as [|e' m'] eqn:E'; [destruct l1; discriminate|].
    assert (e = e').
    { destruct l1; cbn in E, E'; congruence. }
    subst e'. inversion A; subst. apply wk3; [assumption|assumption|]. apply IH; assumption.
Qed.

(** The cycle once around, and one step more. *)
Lemma cycle_parts : exists a1 m, a = a1 :: m /\ wk links (x :: a1 :: m ++ [x]) /\ wk links (x :: a1 :: m ++ [x; a1]).
Proof.
  destruct Cy as (L & N & W). destruct a as [|a1 m]; [cbn in L; lia|]. exists a1, m. split; [reflexivity|].
  assert (B : wk links (a1 :: m ++ [x])).
  { apply simple_wk; [cbn in W; inversion W; subst; assumption|].
    inversion N as [|? ? N1 N2]; subst. rewrite app_comm_cons.
    apply (Permutation_NoDup (l := x :: a1 :: m)); [|exact N].
    apply Permutation_cons_append. }
  assert (Lx : In x (links a1)) by (cbn in W; inversion W; subst; assumption).
  destruct m as [|a2 m]; [cbn in L; lia|].
  assert (NX : x <> a2) by (inversion N as [|? ? N1 N2]; subst; intros E; apply N1; right; left; symmetry; exact E).
  assert (C : wk links (x :: a1 :: a2 :: m ++ [x])) by (apply wk3; [exact Lx|exact NX|exact B]).
  split; [exact C|].
  (* the last node before x *)
  destruct (exists_last (l := a2 :: m)) as (m' & z & E); [discriminate|]. rewrite E.
  replace (x :: a1 :: (m' ++ [z]) ++ [x; a1]) with ((x :: a1 :: m') ++ z :: x :: [a1])
    by (cbn; rewrite <- app_assoc; reflexivity).
  apply wk_append.
  - cbn [app]. replace (m' ++ [z; x]) with ((a2 :: m) ++ [x]) by (rewrite E, <- app_assoc; reflexivity). exact C.
  - assert (Zx : In z (links x)).
    { assert (W' : wk links (z :: [x])).
      { clear - C E. assert (G : forall l, wk links (l ++ [z; x]) -> wk links [z; x]).
        { induction l as [|b l IH]; intros H; [exact H|]. apply IH. cbn [app] in H.
          destruct (l ++ [z; x]) as [|e m2] eqn:Q; [destruct l; discriminate|]. eapply wk_tl. exact H. }
        apply (G (x :: a1 :: m')). cbn [app].
        replace (m' ++ [z; x]) with ((a2 :: m) ++ [x]) by (rewrite E, <- app_assoc; reflexivity). exact C. }
      eapply wk_link. exact W'. }
    apply wk3; [exact Zx| |apply wk2; exact Lx].
    intros Q. subst z. assert (I : In a1 (a2 :: m)) by (rewrite E; apply in_or_app; right; left; reflexivity).
    inversion N as [|? ? N1 N2]; subst. inversion N2; subst. contradiction.
Qed.

Lemma long_walks : forall n, exists a1 r, wk links (x :: a1 :: r) /\ last (x :: a1 :: r) 0 = x /\ n <= length r /\ exists m, a = a1 :: m.
Proof.
  destruct cycle_parts as (a1 & m & E & W1 & W2).
  assert (G : forall n, exists r, wk links (x :: a1 :: r) /\ last (x :: a1 :: r) 0 = x /\ n <= length r).
  { induction n as [|n (r & A & B & C)].
    - exists (m ++ [x]). split; [exact W1|]. split; [|lia].
      change (x :: a1 :: m ++ [x]) with ((x :: a1 :: m) ++ [x]). apply last_app_one.
    - exists (m ++ x :: a1 :: r). split; [|split].
      + change (x :: a1 :: m ++ x :: a1 :: r) with ((x :: a1 :: m) ++ x :: a1 :: r). apply wk_append; [exact W2|exact A].
      + change (x :: a1 :: m ++ x :: a1 :: r) with ((x :: a1 :: m) ++ x :: a1 :: r).
        clear - B. induction (x :: a1 :: m) as [|c l IH]; [exact B|]. cbn [app].
        destruct (l ++ x :: a1 :: r) eqn:Q; [destruct l; discriminate|]. rewrite last_cons. exact IH.
      + rewrite app_length. cbn. lia. }
  intros n. destruct (G n) as (r & A & B & C). exists a1, r. split; [exact A|]. split; [exact B|]. split; [exact C|].
  exists m. exact E.
Qed.
End Around.

Lemma bounded : forall g : list (list nat), exists n, forall t, In t g -> length t < n.
Proof.
  induction g as [|t g (n & IH)]; [exists 0; intros t []|].
  exists (S (Nat.max n (length t))). intros t' [<-|T]; [lia|]. specialize (IH t' T). lia.
Qed.

(** C89 (broadcast with a cycle): a packet of a node on a cycle stays on its
    way for ever, whatever the order in which packets arrive. *)
Theorem broadcast_never_ends :
  forall links s a k x, proper links -> cycle links s a -> moves links s k x -> flight x <> [].
Proof.
  intros links s a k x Pr Cy M Q. destruct (bounded (got x)) as (n & B).
  destruct (long_walks links s a Cy n) as (a1 & r & W & L & Le & _).
  pose proof (quiet_all links Pr s k x M Q _ s (a1 :: r) eq_refl ltac:(discriminate) W L) as T.
  apply B in T. cbn in T. lia.
Qed.
Print Assumptions broadcast_never_ends.

(** A layer of three nodes in a ring, and one of four in a star. *)
Definition ring3 (v : nat) : list nat :=
  match v with 0 => [1; 2] | 1 => [0; 2] | 2 => [0; 1] | _ => [] end.
Definition star4 (v : nat) : list nat :=
  match v with 0 => [1; 2; 3] | 1 => [0] | 2 => [0] | 3 => [0] | _ => [] end.

Ltac nd := repeat (constructor; [cbn; lia|]); try constructor.

Lemma ring3_proper : proper ring3.
Proof.
  split; [|split].
  - intros u v. destruct u as [|[|[|u]]]; cbn; intros H;
      repeat (destruct H as [<-|H]; [cbn; tauto|]); destruct H.
  - intros [|[|[|u]]]; cbn; nd.
  - intros [|[|[|u]]]; cbn; lia.
Qed.

(** Refuted: a node of any layer receives a packet that another one sent
    once, after a while. *)
Theorem ring_duplicates_refuted :
  ~ (forall links nodes s k x v, proper links -> covers links nodes -> connected links nodes ->
       In s nodes -> moves links s k x -> received v x <= 1).
Proof.
  intros H.
  assert (M : moves ring3 0 3 (Net [[1; 2; 0]; [0; 2; 1; 0]] [[2; 1; 0]; [2; 0]; [1; 0]])).
  { eapply MS; [eapply MS; [eapply MS; [apply M0|]|]|].
    - apply (Move ring3 [] [1; 0] [[2; 0]] []).
    - apply (Move ring3 [] [2; 0] [[2; 1; 0]] [[1; 0]]).
    - apply (Move ring3 [] [2; 1; 0] [[1; 2; 0]] [[2; 0]; [1; 0]]). }
  assert (C : covers ring3 [0; 1; 2]).
  { split; [nd|]. intros u v U V. cbn in U. repeat (destruct U as [<-|U]; [cbn in *; lia|]). destruct U. }
  assert (D : connected ring3 [0; 1; 2]).
  { intros a b A B. destruct (Nat.eq_dec a b) as [E|E]; [exists []; subst; split; [constructor|reflexivity]|].
    exists [a]. split; [|reflexivity]. apply WS; [|constructor].
    cbn in A, B. destruct A as [<-|[<-|[<-|[]]]], B as [<-|[<-|[<-|[]]]]; cbn; lia. }
  pose proof (H ring3 [0; 1; 2] 0 3 _ 2 ring3_proper C D (or_introl eq_refl) M) as R.
  vm_compute in R. lia.
Qed.
Print Assumptions ring_duplicates_refuted.

Example ring3_cycle : proper ring3 /\ cycle ring3 0 [1; 2].
Proof.
  split; [apply ring3_proper|]. split; [cbn; lia|]. split; [nd|].
  cbn. repeat (apply WS; [cbn; tauto|]). constructor.
Qed.

Example star4_tree : proper star4 /\ covers star4 [0; 1; 2; 3] /\ connected star4 [0; 1; 2; 3] /\ acyclic star4 /\
  exists x, moves star4 1 3 x /\ flight x = [] /\ map (hd 0) (got x) = [3; 2; 0].
Proof.
  split; [|split; [|split; [|split]]].
  - split; [|split].
    + intros u v. destruct u as [|[|[|[|u]]]]; cbn; intros H;
        repeat (destruct H as [<-|H]; [cbn; tauto|]); destruct H.
    + intros [|[|[|[|u]]]]; cbn; nd.
    + intros [|[|[|[|u]]]]; cbn; lia.
  - split; [nd|]. intros u v U V. cbn in U. repeat (destruct U as [<-|U]; [cbn in *; lia|]). destruct U.
  - intros a b A B. destruct (Nat.eq_dec a b) as [E|E]; [exists []; subst; split; [constructor|reflexivity]|].
    destruct (Nat.eq_dec a 0) as [Ea|Ea]; [|destruct (Nat.eq_dec b 0) as [Eb|Eb]].
    + exists [a]. split; [|reflexivity]. apply WS; [|constructor]. subst. cbn in B. cbn. lia.
    + exists [a]. split; [|reflexivity]. apply WS; [|constructor]. subst. cbn in A.
      repeat (destruct A as [<-|A]; [cbn; lia|]). destruct A.
    + exists [0; a]. split; [|reflexivity]. apply WS; [cbn in *; lia|]. apply WS; [|constructor].
      cbn in A. repeat (destruct A as [<-|A]; [cbn; lia|]). destruct A.
  - intros x a (L & N & W). destruct a as [|u a]; [cbn in L; lia|].
    (* every link has the middle node at one end *)
    assert (Z : forall u v, In v (star4 u) -> (u = 0 /\ v <> 0) \/ (u <> 0 /\ v = 0)).
    { intros u' v'. destruct u' as [|[|[|[|u']]]]; cbn; lia. }
    destruct a as [|v a]; [cbn in L; lia|].
    cbn in W. inversion W as [|? ? ? H1 W1]; subst. inversion W1 as [|? ? ? H2 W2]; subst.
    apply Z in H1, H2. inversion N as [|? ? N1 N2]; subst. inversion N2 as [|? ? N3 N4]; subst.
    destruct H1 as [(-> & X)|(Y & ->)].
    + (* u is the middle; v a leaf, the next is the middle again or the end *)
      destruct a as [|w a].
      * cbn in W2. inversion W2 as [|? ? ? H3 W3]; subst. apply Z in H3. lia.
      * cbn in W2. inversion W2 as [|? ? ? H3 W3]; subst. apply Z in H3. destruct H3 as [H3|H3]; [|lia].
        apply N3. right. left. lia.
    + destruct a as [|w a].
      * cbn in W2. inversion W2 as [|? ? ? H3 W3]; subst. apply Z in H3. lia.
      * cbn in W2. inversion W2 as [|? ? ? H3 W3]; subst. apply Z in H3.
        apply N1. right. left. lia.
  - eexists. split; [|split].
    + eapply MS; [eapply MS; [eapply MS; [apply M0|]|]|].
      * apply (Move star4 [] [0; 1] [] []).
      * apply (Move star4 [] [2; 0; 1] [[3; 0; 1]] [[0; 1]]).
      * apply (Move star4 [] [3; 0; 1] [] [[2; 0; 1]; [0; 1]]).
    + reflexivity.
    + reflexivity.
Qed.
