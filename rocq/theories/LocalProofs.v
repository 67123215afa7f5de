(* Invariants of the local IPCP, each by induction over the history. *)
From Coq Require Import List Bool Arith Lia.
From Verif Require Import LocalModel LocalSpec.
Import ListNotations.

Notation good h := (every careful h).

(* The end that a descriptor was last given to. *)
Fixpoint owner (h : list event) (fd : nat) : option nat :=
  match h with
  | [] => None
  | Open f a :: h' => if Nat.eqb fd f then Some a else owner h' fd
  | Req _ _ o b :: h' => if Nat.eqb fd o then Some b else owner h' fd
  | _ :: h' => owner h' fd
  end.

Lemma upd_eq {A} (f : nat -> A) k v : upd f k v k = v.
Proof. unfold upd. rewrite Nat.eqb_refl. reflexivity. Qed.
Lemma upd_ne {A} (f : nat -> A) k v x : x <> k -> upd f k v x = f x.
Proof. intros H. unfold upd. destruct (Nat.eqb_spec x k); [contradiction|reflexivity]. Qed.

Ltac upd_case x k :=
  unfold upd in *; destruct (Nat.eqb_spec x k); [subst|].

(* Unfold one step and split the cases of the model. *)
Ltac stepcase :=
  cbn [run step] in *;
  repeat (match goal with
  | |- context [match ?x with _ => _ end] =>
      match x with
      | upd _ _ _ _ => fail 1
      | context [upd] => fail 1
      | rx _ _ => destruct x eqn:?
      | flows _ _ => destruct x eqn:?
      | ino _ _ => destruct x eqn:?
      | loop _ => destruct x eqn:?
      | negb (cleared _ _) => destruct x eqn:?
      | down _ _ => destruct x eqn:?
      end
  end; cbn [flows ino down cleared rx loop got lost crashed] in *);
  cbn [flows ino down cleared rx loop got lost crashed] in *.

Lemma flows_owner : forall h fd a, good h -> flows (run h) fd = Some a -> owner h fd = Some a.
Proof.
  induction h as [|e h IH]; intros fd a G; [cbn; discriminate|].
  destruct G as [_ G]. specialize (fun fd a => IH fd a G).
  destruct e; stepcase; cbn [owner]; auto; unfold upd.
  all: match goal with |- context [Nat.eqb ?x ?y] => destruct (Nat.eqb x y); auto; discriminate end.
Qed.

Lemma ending_cons e h a : ending h a -> ending (e :: h) a.
Proof. intros [f H]. exists f. right. exact H. Qed.
Lemma closed_cons e h a : closed h a -> closed (e :: h) a.
Proof. intros [f H]. exists f. right. exact H. Qed.
Lemma paired_cons e h a b : paired h a b -> paired (e :: h) a b.
Proof. intros (f & o & [H|H]); exists f, o; [left|right]; right; exact H. Qed.
Lemma paired_sym h a b : paired h a b -> paired h b a.
Proof. intros (f & o & [H|H]); exists o, f; [right|left]; exact H. Qed.
Lemma connected_cons e h a : connected h a -> connected (e :: h) a.
Proof. intros (f & o & b & [H|H]); exists f, o, b; [left|right]; right; exact H. Qed.

Lemma cleared_ending : forall h a, good h -> cleared (run h) a = true -> ending h a.
Proof.
  induction h as [|e h IH]; intros a G; [cbn; discriminate|].
  destruct G as [C G]. specialize (fun a => IH a G).
  destruct e; stepcase; try (intros; apply ending_cons; auto; fail).
  intros H. destruct C as [[_ E] _]. upd_case a a0.
  - exists fd. right. exact E.
  - apply ending_cons. auto.
Qed.

Lemma cleared_mono h e a : cleared (run h) a = true -> cleared (run (e :: h)) a = true.
Proof. intros H. destruct e; stepcase; auto. upd_case a a0; auto. Qed.

Lemma closed_cleared : forall h a, good h -> closed h a -> cleared (run h) a = true.
Proof.
  induction h as [|e h IH]; intros a G [f H]; [contradiction|].
  destruct G as [C G]. destruct H as [->|H].
  - destruct C as [[_ E] _]. apply cleared_mono. exact E.
  - apply cleared_mono. apply IH; [exact G|]. exists f. exact H.
Qed.

Lemma closed_ending h a : good h -> closed h a -> ending h a.
Proof. intros G H. apply cleared_ending; auto. apply closed_cleared; auto. Qed.

Lemma down_ending : forall h a, good h -> down (run h) a = true -> ending h a.
Proof.
  induction h as [|e h IH]; intros a G; [cbn; discriminate|].
  destruct G as [C G]. specialize (fun a => IH a G).
  destruct e; stepcase; try (intros; apply ending_cons; auto; fail).
  intros H. upd_case a a0.
  - exists fd. left. reflexivity.
  - apply ending_cons. auto.
Qed.

Lemma owner_named : forall h fd a, owner h fd = Some a -> ~ fresh h a.
Proof.
  induction h as [|e h IH]; intros fd a H F; [discriminate|].
  assert (F' : fresh h a) by (intros x Hx; apply F; right; exact Hx).
  assert (Fe : ~ name_of e a) by (apply F; left; reflexivity).
  destruct e; cbn [owner name_of] in *; try exact (IH fd a H F').
  - destruct (Nat.eqb fd fd0); [injection H as <-; exact (Fe eq_refl)|exact (IH fd a H F')].
  - destruct (Nat.eqb fd o); [injection H as <-; exact (Fe eq_refl)|exact (IH fd a H F')].
Qed.

Lemma owner_inj : forall h f g a, good h -> owner h f = Some a -> owner h g = Some a -> f = g.
Proof.
  induction h as [|e h IH]; intros f g a G Hf Hg; [discriminate|].
  destruct G as [[E _] G]. destruct e; cbn [owner env_ok] in *; try (exact (IH f g a G Hf Hg)).
  - destruct E as [_ E]. destruct (Nat.eqb_spec f fd), (Nat.eqb_spec g fd); subst; auto.
    + injection Hf as ->. elim (owner_named _ _ _ Hg E).
    + injection Hg as ->. elim (owner_named _ _ _ Hf E).
    + exact (IH f g a G Hf Hg).
  - destruct E as (_ & _ & E & _). destruct (Nat.eqb_spec f o), (Nat.eqb_spec g o); subst; auto.
    + injection Hf as ->. elim (owner_named _ _ _ Hg E).
    + injection Hg as ->. elim (owner_named _ _ _ Hf E).
    + exact (IH f g a G Hf Hg).
Qed.

Lemma fresh_tail e h a : fresh (e :: h) a -> fresh h a.
Proof. intros F x Hx. apply F. right. exact Hx. Qed.

Lemma req_named : forall h f a o b, good h -> In (Req f a o b) h -> ~ fresh h a /\ ~ fresh h b /\ a <> b.
Proof.
  induction h as [|e h IH]; intros f a o b G H; [contradiction|].
  destruct G as [[E _] G]. destruct H as [->|H].
  - destruct E as (E1 & E2 & E3 & E4 & E5). split; [|split; [|exact E4]].
    + intros F. apply (owner_named h f a); [apply flows_owner; auto|]. exact (fresh_tail _ _ _ F).
    + intros F. exact (F _ (or_introl eq_refl) eq_refl).
  - destruct (IH f a o b G H) as (H1 & H2 & H3).
    split; [|split; [|exact H3]]; intros F; apply fresh_tail in F; auto.
Qed.

Lemma paired_named h a b : good h -> paired h a b -> ~ fresh h a /\ ~ fresh h b.
Proof. intros G (f & o & [H|H]); destruct (req_named _ _ _ _ _ G H) as (? & ? & _); auto. Qed.

Lemma paired_uncons e h a b : paired (e :: h) a b ->
  paired h a b \/ exists f o, e = Req f a o b \/ e = Req o b f a.
Proof.
  intros (f & o & [[H|H]|[H|H]]); [right|left|right|left]; exists f, o; auto.
Qed.

Lemma partner_unique : forall h a b c, good h -> paired h a b -> paired h a c -> b = c.
Proof.
  induction h as [|e h IH]; intros a b c G Hb Hc.
  { destruct Hb as (f & o & [[]|[]]). }
  destruct G as [[E _] G].
  apply paired_uncons in Hb. apply paired_uncons in Hc.
  assert (K : forall x y, paired h a x -> (exists f o, e = Req f a o y \/ e = Req o y f a) -> False).
  { intros x y Hx (f & o & [-> | ->]); cbn [env_ok] in E.
    - destruct E as (_ & _ & _ & _ & E). exact (E x Hx).
    - destruct E as (_ & _ & E & _ & _). exact (proj1 (paired_named _ _ _ G Hx) E). }
  destruct Hb as [Hb|Hb], Hc as [Hc|Hc].
  - exact (IH a b c G Hb Hc).
  - elim (K b c Hb Hc).
  - elim (K c b Hc Hb).
  - destruct Hb as (f & o & [-> | ->]), Hc as (f' & o' & [Q|Q]); injection Q; intros; subst; auto;
    cbn [env_ok] in E; destruct E as (_ & _ & _ & E & _); congruence.
Qed.

(* A descriptor keeps its owner while it is in use. *)
Lemma owner_flows : forall h f a, good h -> owner h f = Some a -> ~ ending h a -> flows (run h) f = Some a.
Proof.
  induction h as [|e h IH]; intros f a G H N; [discriminate|].
  assert (N' : ~ ending h a) by (intros Q; apply N, ending_cons, Q).
  pose proof G as G0. destruct G as [[E _] G]. specialize (fun f a => IH f a G).
  destruct e; cbn [owner] in H; stepcase; auto.
  - upd_case f fd; [congruence|auto].
  - upd_case f o; [congruence|auto].
  - upd_case f fd; [|auto]. exfalso. cbn [env_ok] in E. destruct E as [E1 E2].
    rewrite (flows_owner _ _ _ G E1) in H. injection H as ->. apply N'. apply cleared_ending; auto.
Qed.

Lemma req_owner : forall h f a o b, good h -> In (Req f a o b) h -> ~ closed h a \/ ~ closed h b ->
  owner h f = Some a /\ owner h o = Some b.
Proof.
  induction h as [|e h IH]; intros f a o b G H N; [contradiction|].
  destruct G as [(E & S1 & _) G].
  assert (N' : ~ closed h a \/ ~ closed h b)
    by (destruct N as [N|N]; [left|right]; intros Q; apply N, closed_cons, Q).
  destruct H as [->|H].
  - destruct E as (E1 & E2 & E3 & E4 & E5). cbn [owner]. rewrite Nat.eqb_refl.
    destruct (Nat.eqb_spec f o) as [Q|Q]; [congruence|]. split; [|reflexivity]. apply flows_owner; auto.
  - destruct (IH f a o b G H N') as [O1 O2].
    assert (K : forall fd, gives e fd -> f <> fd /\ o <> fd).
    { intros fd Hg. assert (f = fd \/ o = fd -> False).
      { intros Q. destruct (S1 fd Hg f a o b H Q). tauto. }
      tauto. }
    destruct e; cbn [owner gives] in *; auto.
    + destruct (K _ eq_refl). destruct (Nat.eqb_spec f fd), (Nat.eqb_spec o fd); try contradiction. auto.
    + destruct (K _ eq_refl). destruct (Nat.eqb_spec f o0), (Nat.eqb_spec o o0); try contradiction. auto.
Qed.

(* The table connects the ends of one flow. *)
Lemma table_inv : forall h f o, good h -> ino (run h) f = Some o ->
  exists a b, (In (Req f a o b) h \/ In (Req o b f a) h) /\
    owner h f = Some a /\ owner h o = Some b /\ cleared (run h) a = false.
Proof.
  induction h as [|e h IH]; intros f o G H; [discriminate|].
  pose proof G as G0. destruct G as [(E & S1 & S2 & S3 & S4) G].
  specialize (fun f o => IH f o G).
  assert (KEEP : ino (run h) f = Some o ->
    (forall a, cleared (run h) a = false -> owner h f = Some a -> cleared (run (e :: h)) a = false) ->
    exists a b, (In (Req f a o b) (e :: h) \/ In (Req o b f a) (e :: h)) /\
    owner (e :: h) f = Some a /\ owner (e :: h) o = Some b /\ cleared (run (e :: h)) a = false).
  { intros Hi Hc. destruct (IH f o Hi) as (a & b & Hp & O1 & O2 & Hcl). exists a, b.
    split; [destruct Hp; [left|right]; right; assumption|].
    assert (K : forall fd, gives e fd -> f <> fd /\ o <> fd).
    { intros fd Hg. assert (f = fd \/ o = fd -> False).
      { intros Q. assert (closed h a) as CA.
        { destruct Hp as [Hp|Hp].
          - exact (proj1 (S1 fd Hg f a o b Hp Q)).
          - refine (proj2 (S1 fd Hg o b f a Hp _)). tauto. }
        rewrite (closed_cleared _ _ G CA) in Hcl. discriminate. }
      tauto. }
    rewrite (Hc a Hcl O1). split; [|split; [|reflexivity]].
    - destruct e; cbn [owner gives] in *; auto; destruct (K _ eq_refl).
      + destruct (Nat.eqb_spec f fd); [contradiction|auto].
      + destruct (Nat.eqb_spec f o0); [contradiction|auto].
    - destruct e; cbn [owner gives] in *; auto; destruct (K _ eq_refl).
      + destruct (Nat.eqb_spec o fd); [contradiction|auto].
      + destruct (Nat.eqb_spec o o0); [contradiction|auto]. }
  destruct e.
  - apply KEEP; [exact H|]. auto.
  - apply KEEP; [exact H|]. auto.
  - (* Table *)
    rename o0 into o'. cbn [run step ino] in H. cbn [env_ok] in E. cbn [no_late_table] in S3.
    destruct S3 as [Na Nb].
    assert (NC : ~ closed h a \/ ~ closed h b) by (left; intros Q; apply Na, closed_ending; auto).
    destruct (req_owner h fd a o' b G E NC) as [O1 O2].
    assert (CA : cleared (run h) a = false).
    { destruct (cleared (run h) a) eqn:Q; [|reflexivity]. elim Na. apply cleared_ending; auto. }
    assert (CB : cleared (run h) b = false).
    { destruct (cleared (run h) b) eqn:Q; [|reflexivity]. elim Nb. apply cleared_ending; auto. }
    unfold upd in H. destruct (Nat.eqb_spec f o') as [Q|Q].
    { injection H as <-. subst f. exists b, a. split; [right; right; exact E|]. cbn [owner run step cleared]. auto. }
    destruct (Nat.eqb_spec f fd) as [Q'|Q'].
    { injection H as <-. subst f. exists a, b. split; [left; right; exact E|]. cbn [owner run step cleared]. auto. }
    apply KEEP; [exact H|]. auto.
  - apply KEEP; [exact H|]. auto.
  - (* Untable *)
    cbn [env_ok] in E. destruct E as [E1 E2]. cbn [run step] in H |- *.
    destruct (rx (run h) a) eqn:Er; cbn [ino] in H.
    + unfold upd in H. destruct (Nat.eqb_spec f fd) as [Q|Q]; [discriminate|].
      cbn [run step] in KEEP. rewrite Er in KEEP. apply KEEP; [exact H|].
      intros c Hc Ho. cbn [cleared]. unfold upd. destruct (Nat.eqb_spec c a) as [Q2|Q2]; [|exact Hc].
      subst c. elim Q. apply (owner_inj h f fd a G Ho). apply flows_owner; auto.
    + cbn [run step] in KEEP. rewrite Er in KEEP. apply KEEP; auto.
  - cbn [run step] in *. destruct (negb (cleared (run h) a)); apply KEEP; auto.
  - cbn [run step] in *. destruct (down (run h) a); apply KEEP; auto.
  - cbn [run step] in *. destruct (loop (run h)); apply KEEP; auto.
  - cbn [run step] in *. destruct (loop (run h)); try (apply KEEP; auto; fail).
    destruct (flows (run h) fd); [|apply KEEP; auto].
    destruct (rx (run h) n); apply KEEP; auto.
  - cbn [run step] in *. destruct (loop (run h)); try (apply KEEP; auto; fail).
    destruct (ino (run h) fd); apply KEEP; auto.
  - cbn [run step] in *. destruct (loop (run h)); try (apply KEEP; auto; fail).
    destruct (flows (run h) fd); [|apply KEEP; auto].
    destruct (down (run h) n); apply KEEP; auto.
Qed.

Lemma rx_tag : forall h a x, good h -> In x (rx (run h) a) -> fst x = a.
Proof.
  induction h as [|e h IH]; intros a x G; [cbn; contradiction|].
  destruct G as [_ G]. specialize (fun a x => IH a x G).
  destruct e; stepcase; try exact (IH a x).
  - upd_case a a0; [|apply IH]. intros H. apply in_app_iff in H. destruct H as [H|[<-|[]]]; [auto|reflexivity].
  - upd_case a n; [|apply IH]. intros H. apply IH. match goal with Q : rx (run h) _ = _ :: _ |- _ => rewrite Q end. right. exact H.
Qed.

Lemma owner_other e h fd : (forall g, gives e g -> g <> fd) -> owner (e :: h) fd = owner h fd.
Proof.
  intros H. destruct e; cbn [owner gives] in *; try reflexivity.
  - destruct (Nat.eqb_spec fd fd0); [elim (H fd0 eq_refl); auto|reflexivity].
  - destruct (Nat.eqb_spec fd o); [elim (H o eq_refl); auto|reflexivity].
Qed.

(* The packet that the thread carries. *)
Definition loop_ok (h : list event) : Prop :=
  match loop (run h) with
  | Held f x => owner h f = Some (fst x)
  | Out o x => exists b, owner h o = Some b /\ paired h (fst x) b
  | _ => True
  end.

Lemma loop_inv : forall h, good h -> loop_ok h.
Proof.
  induction h as [|e h IH]; intros G; [exact I|].
  pose proof G as G0. destruct G as [(E & S1 & S2 & S3 & S4) G]. specialize (IH G).
  assert (KEEP : loop (run (e :: h)) = loop (run h) -> loop_ok (e :: h)).
  { intros Q. unfold loop_ok, no_carry in *. rewrite Q. destruct (loop (run h)) as [|f|f x|f x]; auto.
    - rewrite owner_other; [exact IH|]. intros g Hg. apply not_eq_sym. exact (S2 g Hg).
    - destruct IH as (b & O & P). exists b. split; [|apply paired_cons; exact P].
      rewrite owner_other; [exact O|]. intros g Hg. apply not_eq_sym. exact (S2 g Hg). }
  destruct e; try (apply KEEP; stepcase; reflexivity).
  - destruct (loop (run h)) as [|g|g x|g x] eqn:El;
      try (apply KEEP; cbn [run step]; rewrite El; exact El).
    unfold loop_ok. cbn [run step]. rewrite El. exact I.
  - destruct (loop (run h)) as [|g|g x|g x] eqn:El;
      try (apply KEEP; cbn [run step]; rewrite El; exact El).
    unfold loop_ok. cbn [run step]. rewrite El.
    destruct (flows (run h) g) as [a|] eqn:Ef; cbn [loop]; [|exact I].
    destruct (rx (run h) a) as [|x q] eqn:Er; cbn [loop]; [exact I|].
    cbn [owner]. rewrite (rx_tag h a x G); [apply flows_owner; auto|]. rewrite Er. left. reflexivity.
  - destruct (loop (run h)) as [|g|g x|g x] eqn:El;
      try (apply KEEP; cbn [run step]; rewrite El; exact El).
    unfold loop_ok in *. rewrite El in IH. cbn [run step]. rewrite El.
    destruct (ino (run h) g) as [o|] eqn:Ei; cbn [loop]; [|exact I].
    destruct (table_inv h g o G Ei) as (a & b & Hp & O1 & O2 & _).
    exists b. cbn [owner]. split; [exact O2|]. rewrite IH in O1. injection O1 as <-.
    apply paired_cons. exists g, o. exact Hp.
  - destruct (loop (run h)) as [|g|g x|g x] eqn:El;
      try (apply KEEP; cbn [run step]; rewrite El; exact El).
    unfold loop_ok. cbn [run step]. rewrite El.
    destruct (flows (run h) g); cbn [loop]; [|exact I]. destruct (down (run h) n); exact I.
Qed.

(* Isolation. *)
Lemma got_inv : forall h b x, good h -> In x (got (run h) b) -> paired h (fst x) b.
Proof.
  induction h as [|e h IH]; intros b x G; [cbn; contradiction|].
  destruct G as [_ G]. specialize (fun b x => IH b x G).
  pose proof (loop_inv h G) as L. unfold loop_ok in L.
  destruct e; stepcase; try (intros H; apply paired_cons, IH; exact H).
  upd_case b n; [|intros H; apply paired_cons, IH; exact H].
  intros H. apply in_app_iff in H. destruct H as [H|[<-|[]]]; [apply paired_cons, IH; exact H|].
  destruct L as (b & O & P). match goal with Q : flows (run h) _ = Some _ |- _ => rewrite (flows_owner _ _ _ G Q) in O end. injection O as <-.
  apply paired_cons. exact P.
Qed.

(* ---- order ---- *)
Lemma sub_refl {A} (l : list A) : sub l l.
Proof. induction l; [apply sub_nil|apply sub_take; assumption]. Qed.
Lemma sub_trans {A} (l m n : list A) : sub l m -> sub m n -> sub l n.
Proof.
  intros H1 H2. revert l H1. induction H2 as [n|x m n H2 IH|x m n H2 IH]; intros l H1.
  - inversion H1; subst. constructor.
  - apply sub_skip. auto.
  - inversion H1; subst; [apply sub_nil|apply sub_skip; auto|apply sub_take; auto].
Qed.
Lemma sub_app {A} (l m l' m' : list A) : sub l m -> sub l' m' -> sub (l ++ l') (m ++ m').
Proof.
  intros H H'. induction H as [m|x l m H IH|x l m H IH]; cbn [app].
  - induction m; cbn [app]; [assumption|apply sub_skip; assumption].
  - apply sub_skip. exact IH.
  - apply sub_take. exact IH.
Qed.
Lemma sub_drop {A} (l1 l2 l3 m : list A) : sub (l1 ++ l2 ++ l3) m -> sub (l1 ++ l3) m.
Proof.
  intros H. apply (sub_trans _ (l1 ++ l2 ++ l3)); [|exact H].
  apply sub_app; [apply sub_refl|]. change l3 with ([] ++ l3) at 1. apply sub_app; [constructor|apply sub_refl].
Qed.
Lemma sub_nil_inv {A} (l : list A) : sub l [] -> l = [].
Proof. intros H. inversion H. reflexivity. Qed.

Definition from (a : nat) (x : pkt) : bool := Nat.eqb (fst x) a.

Lemma carried_eq l a x : fst x = a -> (exists g, l = Held g x \/ l = Out g x) -> carried l a = [x].
Proof. intros E (g & [-> | ->]); cbn [carried]; rewrite E, Nat.eqb_refl; reflexivity. Qed.

Lemma order_inv : forall h a b, good h ->
  sub (filter (from a) (got (run h) b) ++ carried (loop (run h)) a ++ rx (run h) a) (sent h a).
Proof.
  induction h as [|e h IH]; intros a b G; [constructor|].
  destruct G as [(E & _) G]. specialize (fun a b => IH a b G).
  destruct e; cbn [sent].
  1-6: stepcase; apply IH.
  - (* Write *)
    destruct E as [E _]. cbn [run step]. rewrite E. cbn [got loop rx].
    unfold upd. rewrite (Nat.eqb_sym a a0). destruct (Nat.eqb_spec a0 a) as [Q|Q].
    + subst a0. rewrite !app_assoc. apply sub_app; [|apply sub_refl]. rewrite <- app_assoc. apply IH.
    + rewrite app_nil_r. apply IH.
  - specialize (IH a b). cbn [run step]. destruct (loop (run h)) eqn:El; cbn [got loop rx]; rewrite ?El; exact IH.
  - specialize (IH a b). cbn [run step]. destruct (loop (run h)) eqn:El; rewrite ?El; try exact IH.
    destruct (flows (run h) fd) as [c|] eqn:Ef; cbn [got loop rx]; [|exact IH].
    destruct (rx (run h) c) as [|x q] eqn:Er; cbn [got loop rx]; [exact IH|].
    pose proof (rx_tag h c x G) as Ht. rewrite Er in Ht. specialize (Ht (or_introl eq_refl)).
    cbn [carried] in *. unfold upd. destruct (Nat.eqb_spec a c) as [Q|Q].
    + subst a. rewrite Ht, Nat.eqb_refl. rewrite Er in IH. exact IH.
    + rewrite Ht. destruct (Nat.eqb_spec c a); [congruence|]. exact IH.
  - specialize (IH a b). cbn [run step]. destruct (loop (run h)) eqn:El; rewrite ?El; try exact IH.
    destruct (ino (run h) fd) as [o|]; cbn [got loop rx carried] in *; [exact IH|].
    apply sub_drop in IH. exact IH.
  - specialize (IH a b). cbn [run step]. destruct (loop (run h)) eqn:El; rewrite ?El; try exact IH.
    cbn [carried] in IH.
    destruct (flows (run h) fd) as [c|]; [|cbn [got loop rx carried]; apply sub_drop in IH; exact IH].
    destruct (down (run h) c); cbn [got loop rx carried].
    { apply sub_drop in IH. exact IH. }
    unfold upd. destruct (Nat.eqb_spec b c) as [Q|Q].
    + subst b. rewrite filter_app. cbn [filter]. unfold from at 2.
      destruct (Nat.eqb (fst x) a); rewrite <- app_assoc; exact IH.
    + apply sub_drop in IH. exact IH.
Qed.

Lemma connected_paired h a : good h -> connected h a -> exists b, paired h a b.
Proof.
  revert a. induction h as [|e h IH]; intros a G (f & o & b & H).
  { destruct H as [[]|[]]. }
  destruct G as [(E & _) G].
  destruct H as [[->|H]|[->|H]].
  - exists b. apply paired_cons. exists f, o. left. exact E.
  - destruct (IH a G) as [c Hc]; [exists f, o, b; auto|]. exists c. apply paired_cons. exact Hc.
  - exists b. apply paired_cons. exists f, o. right. exact E.
  - destruct (IH a G) as [c Hc]; [exists f, o, b; auto|]. exists c. apply paired_cons. exact Hc.
Qed.

Lemma sent_connected : forall h a, good h -> sent h a <> [] -> connected h a.
Proof.
  induction h as [|e h IH]; intros a G H; [contradiction|].
  destruct G as [(E & _ & _ & _ & S4) G].
  destruct e; cbn [sent] in H; try (apply connected_cons, IH; assumption).
  destruct (Nat.eqb_spec a0 a) as [Q|Q].
  - subst. apply connected_cons. exact S4.
  - rewrite app_nil_r in H. apply connected_cons, IH; assumption.
Qed.

Lemma connected_table : forall h a, good h -> connected h a -> ~ ending h a ->
  exists f o, ino (run h) f = Some o /\ owner h f = Some a.
Proof.
  induction h as [|e h IH]; intros a G H N.
  { destruct H as (f & o & b & [[]|[]]). }
  pose proof G as G0. destruct G as [(E & S1 & S2 & S3 & S4) G].
  assert (N' : ~ ending h a) by (intros Q; apply N, ending_cons, Q).
  assert (NEW : (exists f o b, e = Table f a o b \/ e = Table o b f a) \/ connected h a).
  { destruct H as (f & o & b & [[H|H]|[H|H]]); [left; exists f, o, b; auto|right; exists f, o, b; auto
      |left; exists f, o, b; auto|right; exists f, o, b; auto]. }
  destruct NEW as [(f & o & b & HE)|HC].
  - assert (HR : In (Req f a o b) h \/ In (Req o b f a) h) by (destruct HE as [-> | ->]; cbn [env_ok] in E; auto).
    assert (NC : ~ closed h a) by (intros Q; apply N', closed_ending; auto).
    assert (O1 : owner h f = Some a).
    { destruct HR as [HR|HR].
      - exact (proj1 (req_owner h f a o b G HR (or_introl NC))).
      - exact (proj2 (req_owner h o b f a G HR (or_intror NC))). }
    destruct HE as [-> | ->]; cbn [run step ino owner].
    + exists f. unfold upd. rewrite Nat.eqb_refl. destruct (Nat.eqb f o); eexists; split; try reflexivity; exact O1.
    + exists f. unfold upd. rewrite Nat.eqb_refl. eexists. split; [reflexivity|exact O1].
  - destruct (IH a G HC N') as (f & o & Hi & Ho).
    pose proof (owner_flows h f a G Ho N') as Hf.
    destruct e; cbn [owner].
    + exists f, o. split; [exact Hi|]. destruct (Nat.eqb_spec f fd); [|exact Ho]. cbn [env_ok] in E. destruct E. congruence.
    + exists f, o. split; [exact Hi|]. destruct (Nat.eqb_spec f o0); [|exact Ho].
      cbn [env_ok] in E. destruct E as (_ & E & _). congruence.
    + cbn [run step ino]. exists f. unfold upd. destruct (Nat.eqb f o0); [eexists; split; [reflexivity|exact Ho]|].
      destruct (Nat.eqb f fd); eexists; (split; [first [reflexivity|exact Hi]|exact Ho]).
    + exists f, o. auto.
    + exists f, o. cbn [run step]. cbn [env_ok] in E. destruct E as [E1 E2].
      assert (Q : f <> fd).
      { intros ->. rewrite Hf in E1. injection E1 as ->. apply N'. exists fd. exact E2. }
      destruct (rx (run h) a0); [|auto]. cbn [ino]. rewrite upd_ne by exact Q. auto.
    + exists f, o. cbn [run step]. destruct (negb _); auto.
    + exists f, o. cbn [run step]. destruct (down _ _); auto.
    + exists f, o. cbn [run step]. destruct (loop (run h)); auto.
    + exists f, o. cbn [run step]. destruct (loop (run h)); auto.
      destruct (flows (run h) fd); auto. destruct (rx (run h) n); auto.
    + exists f, o. cbn [run step]. destruct (loop (run h)); auto. destruct (ino (run h) fd); auto.
    + exists f, o. cbn [run step]. destruct (loop (run h)); auto.
      destruct (flows (run h) fd); auto. destruct (down (run h) n); auto.
Qed.

(* The packet that the thread carries for a live end has a table entry. *)
Lemma held_entry h g x : good h -> loop (run h) = Held g x -> ~ ending h (fst x) -> ino (run h) g <> None.
Proof.
  intros G El N Q. pose proof (loop_inv h G) as L. unfold loop_ok in L. rewrite El in L.
  assert (Hs : sent h (fst x) <> []).
  { intros Es. pose proof (order_inv h (fst x) 0 G) as P. rewrite Es in P. apply sub_nil_inv in P.
    apply app_eq_nil in P. destruct P as [_ P]. apply app_eq_nil in P. destruct P as [P _].
    rewrite (carried_eq _ (fst x) x eq_refl) in P; [discriminate|]. exists g. left. exact El. }
  destruct (connected_table h (fst x) G (sent_connected h _ G Hs) N) as (f & o & Hi & Ho).
  rewrite (owner_inj h f g _ G Ho L) in Hi. congruence.
Qed.

Lemma out_open h g x b : good h -> loop (run h) = Out g x -> paired h (fst x) b -> ~ ending h b ->
  flows (run h) g = Some b /\ down (run h) b = false.
Proof.
  intros G El Hp N. pose proof (loop_inv h G) as L. unfold loop_ok in L. rewrite El in L.
  destruct L as (c & O & P). rewrite (partner_unique h _ c b G P Hp) in O.
  split; [apply owner_flows; auto|]. destruct (down (run h) b) eqn:Q; [|reflexivity].
  elim N. apply down_ending; auto.
Qed.

Lemma exact_inv : forall h a b, good h -> paired h a b -> ~ ending h a -> ~ ending h b ->
  sent h a = got (run h) b ++ carried (loop (run h)) a ++ rx (run h) a.
Proof.
  induction h as [|e h IH]; intros a b G Hp Na Nb.
  { destruct Hp as (f & o & [[]|[]]). }
  pose proof G as G0. destruct G as [(E & S1 & S2 & S3 & S4) G].
  assert (Na' : ~ ending h a) by (intros Q; apply Na, ending_cons, Q).
  assert (Nb' : ~ ending h b) by (intros Q; apply Nb, ending_cons, Q).
  pose proof (paired_uncons _ _ _ _ Hp) as HU.
  assert (OLD : paired h a b -> sent h a = got (run h) b ++ carried (loop (run h)) a ++ rx (run h) a)
    by (intros Q; apply IH; auto).
  destruct HU as [HP|HN].
  2:{ (* a new flow: nothing has been sent and nothing received *)
    assert (Z : sent h a = [] /\ got (run h) b = []).
    { assert (forall c, ~ paired h a c) as NP.
      { intros c Hc. destruct HN as (f & o & [-> | ->]); cbn [env_ok] in E.
        - destruct E as (_ & _ & _ & _ & E). exact (E c Hc).
        - destruct E as (_ & _ & E & _ & _). exact (proj1 (paired_named _ _ _ G Hc) E). }
      assert (forall c, ~ paired h c b) as NQ.
      { intros c Hc. apply paired_sym in Hc. destruct HN as (f & o & [-> | ->]); cbn [env_ok] in E.
        - destruct E as (_ & _ & E & _ & _). exact (proj1 (paired_named _ _ _ G Hc) E).
        - destruct E as (_ & _ & _ & _ & E). exact (E c Hc). }
      split.
      - destruct (sent h a) eqn:Q; [reflexivity|]. exfalso.
        destruct (connected_paired h a G) as [c Hc]; [apply sent_connected; [exact G|congruence]|]. exact (NP c Hc).
      - destruct (got (run h) b) as [|x l] eqn:Q; [reflexivity|]. exfalso.
        apply (NQ (fst x)). apply got_inv; [exact G|]. rewrite Q. left. reflexivity. }
    destruct Z as [Z1 Z2].
    pose proof (order_inv h a b G) as P. rewrite Z1 in P. apply sub_nil_inv in P.
    apply app_eq_nil in P. destruct P as [_ P].
    destruct HN as (f & o & [-> | ->]); cbn [sent run step got loop rx]; rewrite Z1, Z2; symmetry; exact P. }
  specialize (OLD HP).
  destruct e; cbn [sent].
  1-6: stepcase; exact OLD.
  - destruct E as [E _]. cbn [run step]. rewrite E. cbn [got loop rx].
    unfold upd. rewrite (Nat.eqb_sym a a0). destruct (Nat.eqb_spec a0 a) as [Q|Q].
    + subst a0. rewrite OLD, <- !app_assoc. reflexivity.
    + rewrite app_nil_r. exact OLD.
  - cbn [run step]. destruct (loop (run h)) eqn:El; cbn [got loop rx]; rewrite ?El; exact OLD.
  - cbn [run step]. destruct (loop (run h)) eqn:El; rewrite ?El; try exact OLD.
    destruct (flows (run h) fd) as [c|] eqn:Ef; cbn [got loop rx]; [|exact OLD].
    destruct (rx (run h) c) as [|x q] eqn:Er; cbn [got loop rx]; [exact OLD|].
    pose proof (rx_tag h c x G) as Ht. rewrite Er in Ht. specialize (Ht (or_introl eq_refl)).
    cbn [carried] in *. unfold upd. destruct (Nat.eqb_spec a c) as [Q|Q].
    + subst a. rewrite Ht, Nat.eqb_refl. rewrite Er in OLD. exact OLD.
    + rewrite Ht. destruct (Nat.eqb_spec c a); [congruence|]. exact OLD.
  - cbn [run step]. destruct (loop (run h)) eqn:El; rewrite ?El; try exact OLD.
    destruct (ino (run h) fd) as [o|] eqn:Ei; cbn [got loop rx carried] in *; [exact OLD|].
    destruct (Nat.eqb_spec (fst x) a) as [Q|Q]; [|exact OLD].
    subst a. elim (held_entry h fd x G El Na'). exact Ei.
  - cbn [run step]. destruct (loop (run h)) eqn:El; rewrite ?El; try exact OLD.
    cbn [carried] in OLD. destruct (Nat.eqb_spec (fst x) a) as [Q|Q].
    + subst a. destruct (out_open h fd x b G El HP Nb') as [F1 F2]. rewrite F1, F2. cbn [got loop rx carried].
      rewrite upd_eq, <- app_assoc. exact OLD.
    + destruct (flows (run h) fd) as [c|] eqn:Ef; cbn [got loop rx carried]; [|exact OLD].
      destruct (down (run h) c); cbn [got loop rx carried]; [exact OLD|].
      rewrite upd_ne; [exact OLD|]. intros ->.
      pose proof (loop_inv h G) as L. unfold loop_ok in L. rewrite El in L. destruct L as (d & O & P).
      rewrite (flows_owner _ _ _ G Ef) in O. injection O as ->. apply Q.
      apply paired_sym in P, HP. exact (partner_unique h d _ _ G P HP).
Qed.

Lemma ending_dec h a : ending h a \/ ~ ending h a.
Proof.
  induction h as [|e h IH]; [right; intros [f []]|].
  destruct IH as [IH|IH]; [left; apply ending_cons; exact IH|].
  assert (K : (exists f, e = Fini f a) \/ ~ (exists f, e = Fini f a)).
  { destruct e; try (right; intros [f Q]; discriminate).
    destruct (Nat.eq_dec a0 a) as [<-|Q]; [left; exists fd; reflexivity|right; intros [f R]; congruence]. }
  destruct K as [[f ->]|K]; [left; exists f; left; reflexivity|].
  right. intros [f [H|H]]; [apply K; exists f; exact H|apply IH; exists f; exact H].
Qed.

Lemma lost_inv : forall h x, good h -> In x (lost (run h)) ->
  ending h (fst x) \/ exists b, paired h (fst x) b /\ ending h b.
Proof.
  induction h as [|e h IH]; intros x G; [cbn; contradiction|].
  destruct G as [_ G]. specialize (fun x => IH x G).
  assert (KEEP : In x (lost (run h)) -> ending (e :: h) (fst x) \/ exists b, paired (e :: h) (fst x) b /\ ending (e :: h) b).
  { intros H. destruct (IH x H) as [Q|(b & Q1 & Q2)]; [left; apply ending_cons; exact Q|].
    right. exists b. split; [apply paired_cons; exact Q1|apply ending_cons; exact Q2]. }
  destruct e; stepcase; try exact KEEP.
  - intros [<-|H]; [|exact (KEEP H)]. left. apply ending_cons.
    match goal with El : loop (run h) = Held ?g ?y |- _ =>
      destruct (ending_dec h (fst y)) as [Q|Q]; [exact Q|]; elim (held_entry h g y G El Q); assumption end.
  - intros [<-|H]; [|exact (KEEP H)]. right.
    pose proof (loop_inv h G) as L. unfold loop_ok in L.
    match goal with El : loop (run h) = Out ?g ?y |- _ => rewrite El in L; destruct L as (b & O & P);
      exists b; split; [apply paired_cons; exact P|apply ending_cons];
      destruct (ending_dec h b) as [Q|Q]; [exact Q|];
      pose proof (owner_flows h g b G O Q); congruence end.
Qed.
