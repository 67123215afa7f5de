(** Theorems about the packet scheduler (C98). *)
From Coq Require Import List Arith Bool Lia Permutation.
From Verif Require Import PschedModel PschedSpec.
Import ListNotations.

Lemma at_split : forall t l l1 a l2, at_ t l = Some (l1, a, l2) -> l = l1 ++ a :: l2 /\ length l1 = t.
Proof.
  induction t as [|t IH]; intros [|b l] l1 a l2 H; try discriminate H; cbn in H.
  - injection H as <- <- <-. split; reflexivity.
  - destruct (at_ t l) as [[[m1 c] m2]|] eqn:E; [|discriminate H]. injection H as <- <- <-.
    destruct (IH l m1 c m2 E) as (-> & <-). split; reflexivity.
Qed.
Lemma at_len : forall l1 a l2, at_ (length l1) (l1 ++ a :: l2) = Some (l1, a, l2).
Proof. induction l1 as [|b l1 IH]; intros a l2; cbn; [reflexivity|]. rewrite IH. reflexivity. Qed.

Lemma upd_same : forall A (f : nat -> A) k v, upd f k v k = v.
Proof. intros. unfold upd. rewrite Nat.eqb_refl. reflexivity. Qed.
Lemma upd_other : forall A (f : nat -> A) k v x, x <> k -> upd f k v x = f x.
Proof. intros. unfold upd. destruct (Nat.eqb_spec x k); [contradiction|reflexivity]. Qed.

Section P.
Variable cube : nat -> nat.
Variable ts : list nat.

(** ** Which flows a thread sees *)
Definition sees (a : thr) (f : nat) : Prop := In f (evs a) \/ cur a = Some f \/ exists p, held a = Some (f, p).
Record wf (s : st) : Prop := {
  w_q : forall c f, In f (evq s c) -> cube f = c;
  w_t : forall a f, In a (thrs s) -> sees a f -> cube f = qc a;
  w_h : forall a, In a (thrs s) -> held a = None \/ cur a = None;
  w_l : forall f, inset s f = true -> live s f = true;
  w_s : map qc (thrs s) = ts;
  w_o : forall c f p, In (c, f, p) (out s) -> cube f = c
}.

Ltac thread H t := cbn [step] in H; unfold with_thr in H;
  match type of H with context [at_ t ?l] => destruct (at_ t l) as [[[?l1 ?a] ?l2]|] eqn:?AT; [|discriminate H] end;
  match goal with AT : at_ _ _ = Some _ |- _ => apply at_split in AT; destruct AT as (?TH & ?LN) end.

Lemma wf_thr : forall (P : thr -> Prop) l1 a b l2, (forall x, In x (l1 ++ a :: l2) -> P x) -> P b -> forall x, In x (l1 ++ b :: l2) -> P x.
Proof.
  intros P l1 a b l2 H B x I. apply in_app_iff in I. destruct I as [I|[<-|I]]; [|exact B|]; apply H, in_app_iff; [left; exact I|right; right; exact I].
Qed.
Lemma notify_in : forall s c f g, In g (notify cube s f c) -> In g (evq s c) \/ (g = f /\ c = cube f).
Proof.
  intros s c f g H. unfold notify in H. destruct (inset s f); [|left; exact H]. unfold upd in H.
  destruct (Nat.eqb_spec c (cube f)) as [E|E]; [|left; exact H]. subst c. apply in_app_iff in H. destruct H as [H|[<-|[]]]; [left; exact H|right; split; reflexivity].
Qed.

Lemma step_wf : forall s e s', wf s -> step cube s e = Ok s' -> wf s'.
Proof.
  intros s e s' W H. destruct W as [WQ WT WH WL WS WO]. destruct e as [f p|f|f|f|f|f|t|t|t|t].
  - cbn in H. destruct (live s f); [|discriminate H]. injection H as <-. constructor; assumption.
  - cbn in H. destruct (unsaid s f); [discriminate H|]. injection H as <-. constructor; try assumption.
    intros c g I. apply notify_in in I. destruct I as [I|(-> & ->)]; [apply WQ, I|reflexivity].
  - cbn in H. destruct (live s f) eqn:L; [|discriminate H]. destruct (inset s f); [discriminate H|]. destruct (checking s f); [discriminate H|].
    injection H as <-. constructor; try assumption. intros g I. cbn in *. unfold upd in I. destruct (Nat.eqb_spec g f) as [E|_]; [rewrite E; exact L|apply WL, I].
  - cbn in H. destruct (checking s f); [|discriminate H]. injection H as <-. constructor; try assumption.
    cbn. intros c g I. destruct (ring s f); [apply WQ, I|]. apply notify_in in I. destruct I as [I|(-> & ->)]; [apply WQ, I|reflexivity].
  - cbn in H. injection H as <-. constructor; try assumption. intros g I. cbn in *. unfold upd in I. destruct (Nat.eqb_spec g f); [discriminate I|apply WL, I].
  - cbn in H. injection H as <-. constructor; try assumption. intros g I. cbn in *. unfold upd in *. destruct (Nat.eqb_spec g f); [discriminate I|apply WL, I].
  - thread H t. destruct (evs a) eqn:EV; [|discriminate H]. destruct (cur a) eqn:CU; [discriminate H|]. destruct (held a) eqn:HE; [discriminate H|].
    destruct (evq s (qc a)) as [|e es] eqn:Q; [discriminate H|]. injection H as <-. rewrite TH in *. constructor; cbn; try assumption.
    + intros c f I. unfold upd in I. destruct (Nat.eqb_spec c (qc a)); [elim I|apply WQ, I].
    + intros x f I S. revert x I f S. apply (wf_thr (fun x => forall f, sees x f -> cube f = qc x) l1 a); [intros x I f S; apply (WT x f I S)|].
      intros f [S|[S|(p & S)]]; cbn in *; [apply WQ; rewrite Q; exact S|discriminate S|discriminate S].
    + apply (wf_thr (fun x => held x = None \/ cur x = None) l1 a); [exact WH|left; reflexivity].
    + rewrite map_app in *. exact WS.
  - thread H t. destruct (evs a) as [|f es] eqn:EV; [discriminate H|]. destruct (cur a) eqn:CU; [discriminate H|]. destruct (held a) eqn:HE; [discriminate H|].
    injection H as <-. rewrite TH in *. constructor; cbn; try assumption.
    + intros x g I S. revert x I g S. apply (wf_thr (fun x => forall g, sees x g -> cube g = qc x) l1 a); [intros x I g S; apply (WT x g I S)|].
      assert (A : In a (l1 ++ a :: l2)) by (apply in_app_iff; right; left; reflexivity).
      intros g [S|[S|(p & S)]]; cbn in *.
      * apply (WT a g A). left. rewrite EV. right. exact S.
      * destruct (live s f); [|discriminate S]. injection S as <-. apply (WT a f A). left. rewrite EV. left. reflexivity.
      * discriminate S.
    + apply (wf_thr (fun x => held x = None \/ cur x = None) l1 a); [exact WH|left; reflexivity].
    + rewrite map_app in *. exact WS.
  - thread H t. destruct (cur a) as [f|] eqn:CU; [|discriminate H]. destruct (live s f); [|discriminate H].
    assert (A : In a (thrs s)) by (rewrite TH; apply in_app_iff; right; left; reflexivity).
    assert (SE : forall r x g, In x (l1 ++ Thr (qc a) (evs a) None r :: l2) -> sees x g -> (forall p, r = Some (g, p) -> g = f) -> cube g = qc x).
    { intros r x g I S R. apply in_app_iff in I. destruct I as [I|[<-|I]].
      - apply (WT x g); [rewrite TH; apply in_app_iff; left; exact I|exact S].
      - cbn. destruct S as [S|[S|(p & S)]]; cbn in S.
        + apply (WT a g A). left. exact S.
        + discriminate S.
        + rewrite (R p S). apply (WT a f A). right. left. exact CU.
      - apply (WT x g); [rewrite TH; apply in_app_iff; right; right; exact I|exact S]. }
    destruct (ring s f) as [|p r]; injection H as <-; constructor; cbn; try assumption.
    + intros x g I S. apply (SE None x g I S). intros p X. discriminate X.
    + rewrite TH in WH. apply (wf_thr (fun x => held x = None \/ cur x = None) l1 a); [exact WH|left; reflexivity].
    + rewrite TH in WS. rewrite map_app in *. exact WS.
    + intros x g I S. apply (SE (Some (f, p)) x g I S). intros q X. injection X as <- _. reflexivity.
    + rewrite TH in WH. apply (wf_thr (fun x => held x = None \/ cur x = None) l1 a); [exact WH|right; reflexivity].
    + rewrite TH in WS. rewrite map_app in *. exact WS.
  - thread H t. destruct (held a) as [[f p]|] eqn:HE; [|discriminate H]. injection H as <-. 
    assert (A : In a (thrs s)) by (rewrite TH; apply in_app_iff; right; left; reflexivity).
    rewrite TH in *. constructor; cbn; try assumption.
    + intros x g I S. revert x I g S. apply (wf_thr (fun x => forall g, sees x g -> cube g = qc x) l1 a); [intros x I g S; apply (WT x g I S)|].
      intros g [S|[S|(q & S)]]; cbn in *; [|discriminate S|discriminate S]. apply (WT a g A). left. exact S.
    + apply (wf_thr (fun x => held x = None \/ cur x = None) l1 a); [exact WH|left; reflexivity].
    + rewrite map_app in *. exact WS.
    + intros c g q [I|I]; [|apply (WO c g q I)]. injection I as <- <- <-. apply (WT a f A). right. right. exists p. exact HE.
Qed.
Lemma run_wf : forall h s, run cube ts h = Ok s -> wf s.
Proof.
  induction h as [|e h IH]; intros s H; cbn in H.
  - injection H as <-. constructor; cbn.
    + intros c f [].
    + intros a f I S. apply in_map_iff in I. destruct I as (c & <- & _). destruct S as [[]|[S|(p & S)]]; discriminate S.
    + intros a I. apply in_map_iff in I. destruct I as (c & <- & _). left. reflexivity.
    + discriminate.
    + rewrite map_map. cbn. apply map_id.
    + intros c f p [].
  - destruct (run cube ts h) as [s0| |]; try discriminate H. apply (step_wf s0 e s); [apply IH; reflexivity|exact H].
Qed.

(** ** Every packet is somewhere, once *)
Definition in_hand (f : nat) (a : thr) : list nat := match held a with Some (g, p) => if g =? f then [p] else [] | None => [] end.
Lemma hand_none : forall f a, held a = None -> in_hand f a = [].
Proof. intros f a H. unfold in_hand. rewrite H. reflexivity. Qed.
Lemma hand_some : forall f g p a, held a = Some (g, p) -> in_hand f a = if g =? f then [p] else [].
Proof. intros f g p a H. unfold in_hand. rewrite H. reflexivity. Qed.
Lemma hand_thr : forall f c e u, in_hand f (Thr c e u None) = [].
Proof. reflexivity. Qed.
Lemma hand_thr_some : forall f c e u g p, in_hand f (Thr c e u (Some (g, p))) = if g =? f then [p] else [].
Proof. reflexivity. Qed.
Lemma hands_eq : forall s f, hands s f = flat_map (in_hand f) (thrs s).
Proof. reflexivity. Qed.
Definition adds (e : ev) (f : nat) : list nat := match e with Write g p => if g =? f then [p] else [] | _ => [] end.
Lemma written_cons : forall e h f, written (e :: h) f = written h f ++ adds e f.
Proof. intros e h f. destruct e; cbn; try (rewrite app_nil_r; reflexivity). destruct (f0 =? f); [reflexivity|rewrite app_nil_r; reflexivity]. Qed.
Definition got (o : list (nat * nat * nat)) (f : nat) : list nat := map snd (filter (fun x => snd (fst x) =? f) (rev o)).
Lemma got_cons : forall c g p o f, got ((c, g, p) :: o) f = got o f ++ (if g =? f then [p] else []).
Proof.
  intros. unfold got. cbn [rev]. rewrite filter_app, map_app. cbn. destruct (g =? f); reflexivity.
Qed.

(** What a step does to the packets of a flow. *)
Lemma step_packets : forall s e s' f, wf s -> step cube s e = Ok s' ->
  (handed s' f = handed s f /\ hands s' f = hands s f /\ ring s' f = ring s f ++ adds e f) \/
  (exists l1 a l2 p, thrs s = l1 ++ a :: l2 /\ cur a = Some f /\ handed s' f = handed s f /\ ring s f = p :: ring s' f /\ adds e f = [] /\
     hands s f = flat_map (in_hand f) l1 ++ flat_map (in_hand f) l2 /\
     hands s' f = flat_map (in_hand f) l1 ++ p :: flat_map (in_hand f) l2) \/
  (exists l1 a l2 p, thrs s = l1 ++ a :: l2 /\ held a = Some (f, p) /\ handed s' f = handed s f ++ [p] /\ ring s' f = ring s f /\ adds e f = [] /\
     hands s f = flat_map (in_hand f) l1 ++ p :: flat_map (in_hand f) l2 /\
     hands s' f = flat_map (in_hand f) l1 ++ flat_map (in_hand f) l2).
Proof.
  intros s e s' f W H. rewrite !hands_eq. destruct e as [g p|g|g|g|g|g|t|t|t|t].
  1-6: left; cbn in H.
  - destruct (live s g); [|discriminate H]. injection H as <-. cbn. split; [reflexivity|]. split; [reflexivity|].
    unfold upd. rewrite (Nat.eqb_sym f g). destruct (Nat.eqb_spec g f) as [->|_]; [reflexivity|rewrite app_nil_r; reflexivity].
  - destruct (unsaid s g); [discriminate H|]. injection H as <-. cbn. rewrite app_nil_r. auto.
  - destruct (live s g && negb (inset s g) && negb (checking s g)); [|discriminate H]. injection H as <-. cbn. rewrite app_nil_r. auto.
  - destruct (checking s g); [|discriminate H]. injection H as <-. cbn. rewrite app_nil_r. auto.
  - injection H as <-. cbn. rewrite app_nil_r. auto.
  - injection H as <-. cbn. rewrite app_nil_r. auto.
  - left. thread H t. destruct (evs a); [|discriminate H]. destruct (cur a); [discriminate H|]. destruct (held a) eqn:HE; [discriminate H|].
    destruct (evq s (qc a)) as [|e es]; [discriminate H|]. injection H as <-. cbn [thrs ring adds]. rewrite TH, app_nil_r, !flat_map_app. cbn [flat_map].
    rewrite hand_thr, (hand_none f a HE). auto.
  - left. thread H t. destruct (evs a); [discriminate H|]. destruct (cur a); [discriminate H|]. destruct (held a) eqn:HE; [discriminate H|].
    injection H as <-. cbn [thrs ring adds set_thr]. rewrite TH, app_nil_r, !flat_map_app. cbn [flat_map]. rewrite hand_thr, (hand_none f a HE). auto.
  - thread H t. destruct (cur a) as [g|] eqn:CU; [|discriminate H]. destruct (live s g); [|discriminate H].
    assert (HE : held a = None).
    { destruct (w_h s W a) as [E|E]; [rewrite TH; apply in_app_iff; right; left; reflexivity|exact E|congruence]. }
    destruct (ring s g) as [|p r] eqn:R; injection H as <-.
    + left. cbn [thrs ring adds set_thr]. rewrite TH, app_nil_r, !flat_map_app. cbn [flat_map]. rewrite hand_thr, (hand_none f a HE). auto.
    + destruct (Nat.eq_dec g f) as [->|NE].
      * right. left. exists l1, a, l2, p. cbn [thrs ring adds set_thr]. rewrite TH, !flat_map_app. cbn [flat_map].
        rewrite hand_thr_some, (hand_none f a HE), Nat.eqb_refl, upd_same, R. repeat split. exact CU.
      * left. cbn [thrs ring adds set_thr]. rewrite TH, app_nil_r, !flat_map_app. cbn [flat_map]. rewrite hand_thr_some, (hand_none f a HE).
        destruct (Nat.eqb_spec g f); [contradiction|]. rewrite upd_other by congruence. auto.
  - thread H t. destruct (held a) as [[g p]|] eqn:HE; [|discriminate H]. injection H as <-.
    unfold handed. cbn [out ring thrs]. fold (got ((qc a, g, p) :: out s) f). fold (got (out s) f). rewrite got_cons. cbn [adds].
    destruct (Nat.eqb_spec g f) as [->|NE].
    + right. right. exists l1, a, l2, p. rewrite TH, !flat_map_app. cbn [flat_map]. rewrite hand_thr, (hand_some f f p a HE), Nat.eqb_refl. repeat split; reflexivity || exact HE.
    + left. rewrite TH, !app_nil_r, !flat_map_app. cbn [flat_map]. rewrite hand_thr, (hand_some f g p a HE). destruct (Nat.eqb_spec g f); [contradiction|]. auto.
Qed.

Lemma hands_init : forall f, hands (init ts) f = [].
Proof. intros f. unfold hands, init. cbn. induction ts as [|c l IHl]; [reflexivity|cbn; exact IHl]. Qed.

(** Every packet written to a flow was handed over, is in the hands of a thread
    or waits in the ring, once, whatever the threads and callers do. *)
Theorem psched_conserved : forall h s f, run cube ts h = Ok s ->
  Permutation (handed s f ++ hands s f ++ ring s f) (written h f).
Proof.
  induction h as [|e h IH]; intros s f H.
  - injection H as <-. rewrite hands_init. cbn. apply Permutation_refl.
  - cbn [run] in H. destruct (run cube ts h) as [s0| |] eqn:R; try discriminate H. pose proof (run_wf h s0 R) as W. specialize (IH s0 f eq_refl).
    rewrite written_cons. destruct (step_packets s0 e s f W H) as [(A & B & C)|[(l1 & a & l2 & p & T & CU & A & B & C & D & E)|(l1 & a & l2 & p & T & HE & A & B & C & D & E)]].
    + rewrite A, B, C, !app_assoc in *. apply Permutation_app_tail. exact IH.
    + rewrite A, C, E, app_nil_r. rewrite D, B in IH. apply (perm_trans (l' := handed s0 f ++ (flat_map (in_hand f) l1 ++ flat_map (in_hand f) l2) ++ p :: ring s f)); [|exact IH]. rewrite <- !app_assoc. apply Permutation_app_head, Permutation_app_head.
      cbn. apply Permutation_middle.
    + rewrite A, B, C, E, app_nil_r. rewrite D in IH. apply (perm_trans (l' := handed s0 f ++ (flat_map (in_hand f) l1 ++ p :: flat_map (in_hand f) l2) ++ ring s0 f)); [|exact IH]. rewrite <- !app_assoc. apply Permutation_app_head. cbn.
      apply (Permutation_middle (flat_map (in_hand f) l1) (flat_map (in_hand f) l2 ++ ring s0 f) p).
Qed.

(** With the cube of the flow. *)
Theorem psched_cube : forall h s c f p, run cube ts h = Ok s -> In (c, f, p) (out s) -> cube f = c.
Proof. intros h s c f p H. apply (w_o s (run_wf h s H)). Qed.

(** If every cube has one thread, in the order of writing. *)
Theorem psched_order_partial : forall h s f, NoDup ts -> run cube ts h = Ok s ->
  handed s f ++ hands s f ++ ring s f = written h f.
Proof.
  intros h s f ND. revert s. induction h as [|e h IH]; intros s H.
  - injection H as <-. rewrite hands_init. reflexivity.
  - cbn [run] in H. destruct (run cube ts h) as [s0| |] eqn:R; try discriminate H. pose proof (run_wf h s0 R) as W. specialize (IH s0 eq_refl).
    rewrite written_cons.
    (* only one thread has packets of a flow *)
    assert (ONE : forall l1 a l2, thrs s0 = l1 ++ a :: l2 -> sees a f -> flat_map (in_hand f) l1 = [] /\ flat_map (in_hand f) l2 = []).
    { intros l1 a l2 T S. pose proof (w_s s0 W) as WS. rewrite T, map_app in WS. cbn in WS. rewrite <- WS in ND. apply NoDup_remove_2 in ND.
      assert (C : cube f = qc a) by (apply (w_t s0 W a f); [rewrite T; apply in_app_iff; right; left; reflexivity|exact S]).
      assert (Z : forall l, (forall x, In x l -> In x (thrs s0) /\ In (qc x) (map qc l1 ++ map qc l2)) -> flat_map (in_hand f) l = []).
      { induction l as [|x l IHl]; intros X; [reflexivity|]. cbn. rewrite IHl by (intros y Y; apply X; right; exact Y).
        destruct (X x (or_introl eq_refl)) as (I & Q). unfold in_hand. destruct (held x) as [[g p]|] eqn:HE; [|reflexivity].
        destruct (Nat.eqb_spec g f) as [->|_]; [|reflexivity]. elim ND. rewrite <- C. rewrite (w_t s0 W x f I); [exact Q|]. right. right. exists p. exact HE. }
      split; apply Z; intros x X; (split; [rewrite T; apply in_app_iff; cbn; tauto|apply in_app_iff; (left; apply in_map; exact X) || (right; apply in_map; exact X)]). }
    destruct (step_packets s0 e s f W H) as [(A & B & C)|[(l1 & a & l2 & p & T & CU & A & B & C & D & E)|(l1 & a & l2 & p & T & HE & A & B & C & D & E)]].
    + rewrite A, B, C, !app_assoc in *. rewrite IH. reflexivity.
    + destruct (ONE l1 a l2 T) as (X & Y); [right; left; exact CU|]. rewrite X, Y in *. cbn in *. rewrite A, C, E, app_nil_r. rewrite D, B in IH. exact IH.
    + destruct (ONE l1 a l2 T) as (X & Y); [right; right; exists p; exact HE|]. rewrite X, Y in *. cbn in *. rewrite A, B, C, E, app_nil_r. rewrite D in IH.
      rewrite <- app_assoc. exact IH.
Qed.

(** ** No packet stays behind *)
Definition cnt (f : nat) (l : list nat) : nat := count_occ Nat.eq_dec l f.
Definition due (f : nat) (a : thr) : nat := cnt f (evs a) + match cur a with Some g => if g =? f then 1 else 0 | None => 0 end.
Definition sum (f : nat) (l : list thr) : nat := list_sum (map (due f) l).
Definition evn (s : st) (f : nat) : nat := cnt f (evq s (cube f)) + sum f (thrs s).
Lemma sum_app : forall f l1 a l2, sum f (l1 ++ a :: l2) = sum f l1 + due f a + sum f l2.
Proof. intros. unfold sum. rewrite map_app. cbn [map]. rewrite list_sum_app. cbn [list_sum fold_right]. unfold list_sum. cbn. lia. Qed.
Lemma due_eq : forall f a, due f a = cnt f (evs a) + match cur a with Some g => if g =? f then 1 else 0 | None => 0 end.
Proof. reflexivity. Qed.
Lemma due_thr : forall f c e u h, due f (Thr c e u h) = cnt f e + match u with Some g => if g =? f then 1 else 0 | None => 0 end.
Proof. reflexivity. Qed.
Lemma cnt_app : forall f l m, cnt f (l ++ m) = cnt f l + cnt f m.
Proof. intros. apply count_occ_app. Qed.
Lemma cnt_one : forall f g, cnt f [g] = if g =? f then 1 else 0.
Proof. intros. cbn. destruct (Nat.eq_dec g f), (Nat.eqb_spec g f); try congruence; reflexivity. Qed.
Lemma cnt_cons : forall f g l, cnt f (g :: l) = (if g =? f then 1 else 0) + cnt f l.
Proof. intros. rewrite <- cnt_one, <- cnt_app. reflexivity. Qed.
Lemma cnt_notify : forall s f g, cnt f (notify cube s g (cube f)) = cnt f (evq s (cube f)) + (if inset s f then if g =? f then 1 else 0 else 0).
Proof.
  intros s f g. unfold notify. destruct (Nat.eqb_spec g f) as [->|NE].
  - destruct (inset s f); [|lia]. rewrite upd_same, cnt_app, cnt_one, Nat.eqb_refl. reflexivity.
  - assert (Z : (if inset s f then 0 else 0) = 0) by (destruct (inset s f); reflexivity). rewrite Z. destruct (inset s g); [|lia].
    unfold upd. destruct (Nat.eqb_spec (cube f) (cube g)) as [E|E]; [|lia]. rewrite cnt_app, cnt_one. destruct (Nat.eqb_spec g f); [contradiction|]. rewrite E. lia.
Qed.
Lemma step_inset : forall s e s' f, step cube s e = Ok s' -> stays f e -> inset s' f = inset s f /\ live s' f = live s f.
Proof.
  intros s e s' f H (A & B & C). destruct e as [g p|g|g|g|g|g|t|t|t|t].
  - cbn in H. destruct (live s g); [|discriminate H]. injection H as <-. split; reflexivity.
  - cbn in H. destruct (unsaid s g); [discriminate H|]. injection H as <-. split; reflexivity.
  - cbn in H. destruct (live s g && negb (inset s g) && negb (checking s g)); [|discriminate H]. injection H as <-. cbn. rewrite upd_other by congruence. split; reflexivity.
  - cbn in H. destruct (checking s g); [|discriminate H]. injection H as <-. split; reflexivity.
  - cbn in H. injection H as <-. cbn. rewrite upd_other by congruence. split; reflexivity.
  - cbn in H. injection H as <-. cbn. rewrite !upd_other by congruence. split; reflexivity.
  - thread H t. destruct (evs a); [|discriminate H]. destruct (cur a); [discriminate H|]. destruct (held a); [discriminate H|].
    destruct (evq s (qc a)); [discriminate H|]. injection H as <-. split; reflexivity.
  - thread H t. destruct (evs a); [discriminate H|]. destruct (cur a); [discriminate H|]. destruct (held a); [discriminate H|]. injection H as <-. split; reflexivity.
  - thread H t. destruct (cur a) as [g|]; [|discriminate H]. destruct (live s g); [|discriminate H]. destruct (ring s g); injection H as <-; split; reflexivity.
  - thread H t. destruct (held a) as [[g p]|]; [|discriminate H]. injection H as <-. split; reflexivity.
Qed.

(** Packets and events of a flow in the set, before and after a step that
    leaves it there. *)
Definition chk (s : st) (f : nat) : nat := if checking s f then 1 else 0.
Lemma step_counts : forall s e s' f, wf s -> step cube s e = Ok s' -> stays f e -> inset s f = true ->
  (* packets and events together *)
  (length (ring s' f) + unsaid s f + evn s f + chk s f = length (ring s f) + unsaid s' f + evn s' f + chk s' f) \/
  (* an event for which there is no packet *)
  (ring s f = [] /\ ring s' f = [] /\
   (evn s f = S (evn s' f) /\ unsaid s' f = unsaid s f /\ checking s' f = checking s f \/
    evn s' f = evn s f /\ unsaid s' f = unsaid s f /\ checking s f = true /\ checking s' f = false)).
Proof.
  intros s e s' f W H ST IN. pose proof (w_l s W f IN) as LV. unfold evn, chk. destruct e as [g p|g|g|g|g|g|t|t|t|t].
  - left. cbn in H. destruct (live s g); [|discriminate H]. injection H as <-. cbn [ring unsaid evq thrs checking]. unfold upd. destruct (Nat.eqb_spec f g) as [<-|_]; [rewrite app_length; cbn; lia|lia].
  - left. cbn in H. destruct (unsaid s g) as [|n] eqn:U; [discriminate H|]. injection H as <-. cbn [ring unsaid evq thrs checking]. rewrite cnt_notify, IN.
    unfold upd. rewrite (Nat.eqb_sym f g). destruct (Nat.eqb_spec g f) as [->|_]; [rewrite U; lia|lia].
  - left. cbn in H. destruct (live s g && negb (inset s g) && negb (checking s g)); [|discriminate H]. injection H as <-. cbn [ring unsaid evq thrs checking].
    rewrite upd_other by (destruct ST as (X & _); congruence). lia.
  - cbn in H. destruct (checking s g) eqn:C; [|discriminate H]. injection H as <-. cbn [ring unsaid evq thrs checking]. destruct (Nat.eq_dec g f) as [->|NE].
    + rewrite upd_same. destruct (ring s f) as [|q r] eqn:R.
      * right. split; [reflexivity|]. split; [reflexivity|]. right. auto.
      * left. rewrite cnt_notify, IN, Nat.eqb_refl, C. lia.
    + left. rewrite upd_other by congruence. destruct (ring s g) as [|q r] eqn:R; [lia|]. rewrite cnt_notify, IN. destruct (Nat.eqb_spec g f); [contradiction|]. lia.
  - left. cbn in H. injection H as <-. cbn [ring unsaid evq thrs checking]. lia.
  - left. cbn in H. injection H as <-. cbn [ring unsaid evq thrs checking]. lia.
  - left. thread H t. destruct (evs a) eqn:EV; [|discriminate H]. destruct (cur a) eqn:CU; [discriminate H|]. destruct (held a) eqn:HE; [discriminate H|].
    destruct (evq s (qc a)) as [|e es] eqn:Q; [discriminate H|]. injection H as <-. cbn [ring unsaid evq thrs checking]. rewrite TH, !sum_app.
    rewrite due_thr, (due_eq f a).  rewrite EV, CU. unfold upd. destruct (Nat.eqb_spec (cube f) (qc a)) as [E|E].
    + rewrite E, Q. change (cnt f []) with 0. lia.
    + assert (Z : cnt f (e :: es) = 0).
      { apply count_occ_not_In. intros I. rewrite <- Q in I. apply (w_q s W) in I. contradiction. }
      rewrite Z. change (cnt f []) with 0. lia.
  - thread H t. destruct (evs a) as [|g es] eqn:EV; [discriminate H|]. destruct (cur a) eqn:CU; [discriminate H|]. destruct (held a) eqn:HE; [discriminate H|].
    injection H as <-. left. cbn [ring unsaid evq thrs checking set_thr]. rewrite TH, !sum_app. rewrite due_thr, (due_eq f a).  rewrite EV, CU, cnt_cons.
    destruct (live s g) eqn:L; [lia|]. destruct (Nat.eqb_spec g f) as [->|_]; [congruence|]. lia.
  - thread H t. destruct (cur a) as [g|] eqn:CU; [|discriminate H]. destruct (live s g); [|discriminate H].
    destruct (ring s g) as [|p r] eqn:R; injection H as <-; cbn [ring unsaid evq thrs checking set_thr]; rewrite TH, !sum_app; rewrite due_thr, (due_eq f a);  rewrite CU.
    + destruct (Nat.eqb_spec g f) as [->|NE]; [right|left; lia]. split; [exact R|]. split; [exact R|]. left. split; [lia|split; reflexivity].
    + left. unfold upd. rewrite (Nat.eqb_sym f g). destruct (Nat.eqb_spec g f) as [->|_]; [rewrite R; cbn; lia|lia].
  - left. thread H t. destruct (held a) as [[g p]|] eqn:HE; [|discriminate H]. injection H as <-. cbn [ring unsaid evq thrs checking].
    destruct (w_h s W a) as [E|E]; [rewrite TH; apply in_app_iff; right; left; reflexivity|congruence|].
    rewrite TH, !sum_app. rewrite due_thr, (due_eq f a).  rewrite E. lia.
Qed.

Lemma early_inv : forall h s f, added_early cube ts h -> run cube ts h = Ok s -> inset s f = true ->
  length (ring s f) <= unsaid s f + evn s f + chk s f.
Proof.
  induction h as [|e h IH]; intros s f A H IN.
  - injection H as <-. cbn. lia.
  - destruct A as (A & AE). cbn [run] in H. destruct (run cube ts h) as [s0| |] eqn:R; try discriminate H. pose proof (run_wf h s0 R) as W.
    assert (D : stays f e \/ ~ stays f e).
    { destruct e as [g p|g|g|g|g|g|t|t|t|t]; try (left; repeat split; discriminate).
      all: destruct (Nat.eq_dec g f) as [->|NE]; [right; intros (X & Y & Z); congruence|left; repeat split; congruence]. }
    destruct D as [ST|NS].
    + destruct (step_inset s0 e s f H ST) as (I & _). rewrite I in IN. specialize (IH s0 f A eq_refl IN).
      destruct (step_counts s0 e s f W H ST IN) as [E|(E1 & E2 & _)]; [lia|]. rewrite E2. cbn. lia.
    + destruct e as [g p|g|g|g|g|g|t|t|t|t]; try (elim NS; repeat split; discriminate).
      * assert (g = f) as -> by (destruct (Nat.eq_dec g f); [assumption|elim NS; repeat split; congruence]).
        specialize (AE s0 eq_refl). cbn in H. destruct (live s0 f && negb (inset s0 f) && negb (checking s0 f)); [|discriminate H].
        injection H as <-. unfold chk. cbn. rewrite upd_same. lia.
      * assert (g = f) as -> by (destruct (Nat.eq_dec g f); [assumption|elim NS; repeat split; congruence]).
        cbn in H. injection H as <-. cbn in IN. rewrite upd_same in IN. discriminate IN.
      * assert (g = f) as -> by (destruct (Nat.eq_dec g f); [assumption|elim NS; repeat split; congruence]).
        cbn in H. injection H as <-. cbn in IN. rewrite upd_same in IN. discriminate IN.
Qed.
Lemma still_evn : forall s f, still s f -> evn s f = 0.
Proof.
  intros s f (_ & _ & Q & T). unfold evn. assert (Z : cnt f (evq s (cube f)) = 0) by (apply count_occ_not_In, Q). rewrite Z. cbn.
  induction (thrs s) as [|a l IH]; [reflexivity|]. inversion T as [|? ? (X & Y) T']. subst. change (sum f (a :: l)) with (due f a + sum f l). rewrite IH by exact T'.
  unfold due. assert (Z2 : cnt f (evs a) = 0) by (apply count_occ_not_In, X). rewrite Z2. destruct (cur a) as [g|]; [|reflexivity].
  destruct (Nat.eqb_spec g f) as [->|_]; [elim Y; reflexivity|reflexivity].
Qed.
(** If flows are added before a second packet waits, no packet stays in a ring
    once everybody has done what they had to. *)
Theorem psched_nothing_stays_partial : forall h s f, added_early cube ts h -> run cube ts h = Ok s ->
  inset s f = true -> still s f -> ring s f = [].
Proof.
  intros h s f A H IN S. pose proof (early_inv h s f A H IN) as L. rewrite (still_evn s f S) in L. destruct S as (U & C & _).
  rewrite U in L. unfold chk in L. rewrite C in L. destruct (ring s f); [reflexivity|cbn in L; lia].
Qed.

Lemma backlog_eq : forall h s f k s', run cube ts h = Ok s -> inset s f = true -> still s f -> ring s f <> [] ->
  Forall (stays f) k -> run cube ts (k ++ h) = Ok s' ->
  length (ring s' f) = length (ring s f) + unsaid s' f + evn s' f.
Proof.
  intros h s f k s' H IN S NE. remember (length (ring s f)) as b eqn:B. assert (B1 : 1 <= b) by (subst b; destruct (ring s f); [congruence|cbn; lia]).
  cut (forall s', Forall (stays f) k -> run cube ts (k ++ h) = Ok s' ->
    inset s' f = true /\ checking s' f = false /\ length (ring s' f) = b + unsaid s' f + evn s' f).
  { intros F A R. apply (F s' A R). }
  induction k as [|e k IH]; intros s1 F R.
  - cbn in R. rewrite H in R. injection R as <-. rewrite (still_evn s f S). destruct S as (U & C & _). rewrite U. split; [exact IN|]. split; [exact C|lia].
  - inversion F as [|? ? F1 F2]. subst. cbn [app run] in R. destruct (run cube ts (k ++ h)) as [s0| |] eqn:R0; try discriminate R.
    destruct (IH s0 F2 eq_refl) as (I0 & C0 & L0). pose proof (run_wf (k ++ h) s0 R0) as W. destruct (step_inset s0 e s1 f R F1) as (I & _).
    split; [congruence|].
    assert (C1 : checking s1 f = false).
    { destruct e as [g p|g|g|g|g|g|t|t|t|t].
      - cbn in R. destruct (live s0 g); [|discriminate R]. injection R as <-. exact C0.
      - cbn in R. destruct (unsaid s0 g); [discriminate R|]. injection R as <-. exact C0.
      - cbn in R. destruct (live s0 g && negb (inset s0 g) && negb (checking s0 g)); [|discriminate R]. injection R as <-. cbn.
        rewrite upd_other by (destruct F1 as (X & _); congruence). exact C0.
      - cbn in R. destruct (checking s0 g); [|discriminate R]. injection R as <-. cbn. unfold upd. destruct (f =? g); [reflexivity|exact C0].
      - cbn in R. injection R as <-. exact C0.
      - cbn in R. injection R as <-. exact C0.
      - thread R t. destruct (evs a); [|discriminate R]. destruct (cur a); [discriminate R|]. destruct (held a); [discriminate R|].
        destruct (evq s0 (qc a)); [discriminate R|]. injection R as <-. exact C0.
      - thread R t. destruct (evs a); [discriminate R|]. destruct (cur a); [discriminate R|]. destruct (held a); [discriminate R|]. injection R as <-. exact C0.
      - thread R t. destruct (cur a) as [g|]; [|discriminate R]. destruct (live s0 g); [|discriminate R]. destruct (ring s0 g); injection R as <-; exact C0.
      - thread R t. destruct (held a) as [[g p]|]; [|discriminate R]. injection R as <-. exact C0. }
    split; [exact C1|]. destruct (step_counts s0 e s1 f W R F1 I0) as [E|(E1 & _)]; unfold chk in *; rewrite ?C0, ?C1 in *; [lia|].
    rewrite E1 in L0. cbn in L0. lia.
Qed.

(** Otherwise, what stayed behind stays behind: whatever is written and read
    afterwards, as many packets wait, until the flow is removed. *)
Theorem psched_backlog : forall h s f k s', run cube ts h = Ok s -> inset s f = true -> still s f -> ring s f <> [] ->
  Forall (stays f) k -> run cube ts (k ++ h) = Ok s' -> length (ring s f) <= length (ring s' f).
Proof. intros h s f k s' H I S N F R. rewrite (backlog_eq h s f k s' H I S N F R). lia. Qed.

(** ** The threads get everything done *)
Definition safe (s : st) : Prop := forall a f, In a (thrs s) -> cur a = Some f -> live s f = true.

Lemma step_safe : forall s e s', safe s -> step cube s e = Ok s' -> (forall f, e = Fini f -> Forall (fun a => cur a <> Some f) (thrs s)) -> safe s'.
Proof.
  intros s e s' S H F. unfold safe in *. destruct e as [g p|g|g|g|g|g|t|t|t|t].
  - cbn in H. destruct (live s g); [|discriminate H]. injection H as <-. exact S.
  - cbn in H. destruct (unsaid s g); [discriminate H|]. injection H as <-. exact S.
  - cbn in H. destruct (live s g && negb (inset s g) && negb (checking s g)); [|discriminate H]. injection H as <-. exact S.
  - cbn in H. destruct (checking s g); [|discriminate H]. injection H as <-. exact S.
  - cbn in H. injection H as <-. exact S.
  - cbn in H. injection H as <-. cbn. intros a f I C. rewrite upd_other; [apply (S a f I C)|]. intros ->. specialize (F g eq_refl). rewrite Forall_forall in F. apply (F a I C).
  - thread H t. destruct (evs a); [|discriminate H]. destruct (cur a) eqn:CU; [discriminate H|]. destruct (held a); [discriminate H|].
    destruct (evq s (qc a)); [discriminate H|]. injection H as <-. cbn. intros x f I C. rewrite TH in S. revert x I f C.
    apply (wf_thr (fun x => forall f, cur x = Some f -> live s f = true) l1 a); [intros x I f C; apply (S x f I C)|discriminate].
  - thread H t. destruct (evs a) as [|g es]; [discriminate H|]. destruct (cur a) eqn:CU; [discriminate H|]. destruct (held a); [discriminate H|].
    injection H as <-. cbn. intros x f I C. rewrite TH in S. revert x I f C.
    apply (wf_thr (fun x => forall f, cur x = Some f -> live s f = true) l1 a); [intros x I f C; apply (S x f I C)|]. cbn. intros f X.
    destruct (live s g) eqn:L; [|discriminate X]. injection X as <-. exact L.
  - thread H t. destruct (cur a) as [g|] eqn:CU; [|discriminate H]. destruct (live s g); [|discriminate H]. rewrite TH in S.
    destruct (ring s g); injection H as <-; cbn; intros x f I C; revert x I f C;
    (apply (wf_thr (fun x => forall f, cur x = Some f -> live s f = true) l1 a); [intros x I f C; apply (S x f I C)|discriminate]).
  - thread H t. destruct (held a) as [[g p]|]; [|discriminate H]. injection H as <-. cbn. intros x f I C. rewrite TH in S. revert x I f C.
    apply (wf_thr (fun x => forall f, cur x = Some f -> live s f = true) l1 a); [intros x I f C; apply (S x f I C)|discriminate].
Qed.
Lemma run_safe : forall h s, ended_late cube ts h -> run cube ts h = Ok s -> safe s.
Proof.
  induction h as [|e h IH]; intros s E H; cbn in H.
  - injection H as <-. intros a f I C. cbn in I. apply in_map_iff in I. destruct I as (c & <- & _). discriminate C.
  - destruct E as (E & EL). destruct (run cube ts h) as [s0| |] eqn:R; try discriminate H.
    apply (step_safe s0 e s); [apply IH; [exact E|reflexivity]|exact H|]. intros f ->. apply EL. reflexivity.
Qed.
(** The scheduler aborts only if a flow is deallocated after a thread got its
    event and before it read the packet. *)
Theorem psched_no_abort_partial : forall h, ended_late cube ts h -> run cube ts h <> Crash.
Proof.
  induction h as [|e h IH]; intros E H; [discriminate H|]. destruct E as (E & EL). cbn in H.
  destruct (run cube ts h) as [s| |] eqn:R; [|apply (IH E eq_refl)|discriminate H]. pose proof (run_safe h s E R) as S.
  destruct e as [g p|g|g|g|g|g|t|t|t|t].
  - cbn in H. destruct (live s g); discriminate H.
  - cbn in H. destruct (unsaid s g); discriminate H.
  - cbn in H. destruct (live s g && negb (inset s g) && negb (checking s g)); discriminate H.
  - cbn in H. destruct (checking s g); discriminate H.
  - discriminate H.
  - discriminate H.
  - thread H t. destruct (evs a); [|discriminate H]. destruct (cur a); [discriminate H|]. destruct (held a); [discriminate H|]. destruct (evq s (qc a)); discriminate H.
  - thread H t. destruct (evs a); [discriminate H|]. destruct (cur a); [discriminate H|]. destruct (held a); discriminate H.
  - thread H t. destruct (cur a) as [g|] eqn:CU; [|discriminate H]. rewrite (S a g) in H; [destruct (ring s g); discriminate H| |exact CU].
    rewrite TH. apply in_app_iff. right. left. reflexivity.
  - thread H t. destruct (held a) as [[g p]|]; discriminate H.
Qed.

(** Histories from a state. *)
Fixpoint go (s : st) (k : list ev) : res :=
  match k with [] => Ok s | e :: k => match go s k with Ok s' => step cube s' e | r => r end end.
Lemma go_run : forall h s k, run cube ts h = Ok s -> run cube ts (k ++ h) = go s k.
Proof. intros h s k H. induction k as [|e k IH]; cbn; [exact H|rewrite IH; reflexivity]. Qed.
Lemma go_app : forall k1 k2 s s1, go s k2 = Ok s1 -> go s (k1 ++ k2) = go s1 k1.
Proof. intros k1 k2 s s1 H. induction k1 as [|e k1 IH]; cbn; [exact H|rewrite IH; reflexivity]. Qed.

Definition idle (a : thr) : Prop := evs a = [] /\ cur a = None /\ held a = None.
Definition same (s s' : st) : Prop :=
  live s' = live s /\ unsaid s' = unsaid s /\ inset s' = inset s /\ checking s' = checking s /\ evq s' = evq s.
Definition work (a : thr) : nat := 3 * length (evs a) + match cur a with Some _ => 2 | None => 0 end + match held a with Some _ => 1 | None => 0 end.
Lemma drain1 : forall n l1 a l2 s, thrs s = l1 ++ a :: l2 -> work a <= n -> safe s -> (held a = None \/ cur a = None) ->
  exists k s', Forall inner k /\ go s k = Ok s' /\ same s s' /\ safe s' /\ thrs s' = l1 ++ Thr (qc a) [] None None :: l2.
Proof.
  induction n as [|n IH]; intros l1 a l2 s T L SF HC.
  - exists [], s. split; [constructor|]. split; [reflexivity|]. split; [repeat split|]. split; [exact SF|]. rewrite T. destruct a as [c es cu he]. unfold work in L. cbn in *.
    destruct es; [|cbn in L; lia]. destruct cu; [lia|]. destruct he; [lia|]. reflexivity.
  - assert (AT : at_ (length l1) (thrs s) = Some (l1, a, l2)) by (rewrite T; apply at_len).
    assert (GO : forall e s1 b, step cube s e = Ok s1 -> inner e -> same s s1 -> thrs s1 = l1 ++ b :: l2 -> qc b = qc a -> work b < work a -> (held b = None \/ cur b = None) ->
      (exists k s', Forall inner k /\ go s k = Ok s' /\ same s s' /\ safe s' /\ thrs s' = l1 ++ Thr (qc a) [] None None :: l2)).
    { intros e s1 b ST IN SA T1 QB WB HB. destruct (IH l1 b l2 s1 T1) as (k & s' & F & G & S2 & S3 & T3); [lia| |exact HB|].
      - apply (step_safe s e s1 SF ST). intros f X. subst e. elim IN.
      - exists (k ++ [e]), s'. split; [apply Forall_app; split; [exact F|constructor; [exact IN|constructor]]|]. split; [|split; [|split; [exact S3|rewrite <- QB; exact T3]]].
        + rewrite (go_app k [e] s s1); [exact G|exact ST].
        + destruct SA as (A1 & A2 & A3 & A4 & A5), S2 as (B1 & B2 & B3 & B4 & B5). repeat split; congruence. }
    destruct (held a) as [[f p]|] eqn:HE.
    { eapply (GO (Call (length l1))); [cbn; unfold with_thr; rewrite AT, HE; reflexivity|exact I|repeat split|reflexivity|reflexivity| |left; reflexivity].
      unfold work. cbn. rewrite HE. destruct (cur a); lia. }
    destruct (cur a) as [f|] eqn:CU.
    { assert (LV : live s f = true) by (apply (SF a f); [rewrite T; apply in_app_iff; right; left; reflexivity|exact CU]).
      destruct (ring s f) as [|p r] eqn:R.
      - eapply (GO (Read (length l1))); [cbn; unfold with_thr; rewrite AT, CU, LV, R; reflexivity|exact I|repeat split|reflexivity|reflexivity| |left; reflexivity].
        unfold work. cbn. rewrite CU, HE. lia.
      - eapply (GO (Read (length l1))); [cbn; unfold with_thr; rewrite AT, CU, LV, R; reflexivity|exact I|repeat split|reflexivity|reflexivity| |right; reflexivity].
        unfold work. cbn. rewrite CU, HE. lia. }
    destruct (evs a) as [|f es] eqn:EV.
    { exists [], s. split; [constructor|]. split; [reflexivity|]. split; [repeat split|]. split; [exact SF|]. rewrite T. destruct a as [c e2 cu he]. cbn in *. subst. reflexivity. }
    eapply (GO (Next (length l1))); [cbn; unfold with_thr; rewrite AT, EV, CU, HE; reflexivity|exact I|repeat split|reflexivity|reflexivity| |left; reflexivity].
    unfold work. cbn. rewrite EV, CU, HE. destruct (live s f); cbn [length]; lia.
Qed.
Lemma drain_all : forall l2 l1 s, thrs s = l1 ++ l2 -> Forall idle l1 -> safe s -> (forall a, In a l2 -> held a = None \/ cur a = None) ->
  exists k s', Forall inner k /\ go s k = Ok s' /\ same s s' /\ safe s' /\ thrs s' = l1 ++ map (fun a => Thr (qc a) [] None None) l2.
Proof.
  induction l2 as [|a l2 IH]; intros l1 s T ID SF HC.
  - exists [], s. split; [constructor|]. split; [reflexivity|]. split; [repeat split|]. split; [exact SF|exact T].
  - destruct (drain1 (work a) l1 a l2 s T (le_n _) SF (HC a (or_introl eq_refl))) as (k1 & s1 & F1 & G1 & S1 & SF1 & T1).
    destruct (IH (l1 ++ [Thr (qc a) [] None None]) s1) as (k2 & s2 & F2 & G2 & S2 & SF2 & T2).
    + rewrite T1, <- app_assoc. reflexivity.
    + apply Forall_app. split; [exact ID|]. constructor; [repeat split|constructor].
    + exact SF1.
    + intros b B. apply HC. right. exact B.
    + exists (k2 ++ k1), s2. split; [apply Forall_app; split; assumption|]. split; [rewrite (go_app k2 k1 s s1 G1); exact G2|].
      split; [|split; [exact SF2|rewrite T2, <- app_assoc; reflexivity]].
      destruct S1 as (A1 & A2 & A3 & A4 & A5), S2 as (B1 & B2 & B3 & B4 & B5). repeat split; congruence.
Qed.
Lemma say_all : forall n s f, unsaid s f = n -> exists k s', Forall inner k /\ go s k = Ok s' /\ unsaid s' f = 0 /\ inset s' = inset s /\ checking s' = checking s.
Proof.
  induction n as [|n IH]; intros s f U.
  - exists [], s. split; [constructor|]. split; [reflexivity|]. auto.
  - set (s1 := St (live s) (ring s) (upd (unsaid s) f n) (inset s) (checking s) (notify cube s f) (thrs s) (out s)).
    destruct (IH s1 f) as (k & s' & F & G & U' & I' & C'); [cbn; apply upd_same|].
    exists (k ++ [Notify f]), s'. split; [apply Forall_app; split; [exact F|constructor; [exact I|constructor]]|].
    split; [rewrite (go_app k [Notify f] s s1); [exact G|cbn; rewrite U; reflexivity]|]. auto.
Qed.
Lemma inner_stays : forall f e, inner e -> stays f e.
Proof. intros f e I. destruct e; try elim I; repeat split; discriminate. Qed.
Lemma inner_early : forall k h, Forall inner k -> added_early cube ts h -> added_early cube ts (k ++ h).
Proof. induction k as [|e k IH]; intros h F A; [exact A|]. inversion F as [|? ? F1 F2]. subst. cbn. split; [apply IH; assumption|]. destruct e; try exact I. elim F1. Qed.
Lemma inner_written : forall k h f, Forall inner k -> written (k ++ h) f = written h f.
Proof.
  induction k as [|e k IH]; intros h f F; [reflexivity|]. inversion F as [|? ? F1 F2]. subst. cbn [app]. rewrite written_cons, IH by exact F2.
  destruct e; try elim F1; cbn; apply app_nil_r.
Qed.
Lemma go_safe : forall k s s', Forall inner k -> safe s -> go s k = Ok s' -> safe s'.
Proof.
  induction k as [|e k IH]; intros s s' F S G; cbn in G; [injection G as <-; exact S|]. inversion F as [|? ? F1 F2]. subst.
  destruct (go s k) as [s1| |] eqn:G1; try discriminate G. apply (step_safe s1 e s'); [apply (IH s s1 F2 S G1)|exact G|].
  intros f ->. elim F1.
Qed.
(** From every reachable state, the writers finish their calls and the threads
    can go on until all packets of a flow that was added early were handed
    over, whatever the others do not do. *)
Theorem psched_delivers_partial : forall h s f, added_early cube ts h -> ended_late cube ts h -> run cube ts h = Ok s ->
  inset s f = true -> In (cube f) ts ->
  exists k s', Forall inner k /\ run cube ts (k ++ h) = Ok s' /\ Permutation (handed s' f) (written h f).
Proof.
  intros h s f AE EL H IN CT.
  destruct (say_all (unsaid s f) s f eq_refl) as (k1 & s1 & F1 & G1 & U1 & I1 & C1).
  (* the check *)
  assert (X : exists k s2, Forall inner k /\ go s1 k = Ok s2 /\ unsaid s2 f = 0 /\ checking s2 f = false).
  { destruct (checking s1 f) eqn:C.
    - eexists [Check f], _. split; [constructor; [exact I|constructor]|]. split; [cbn; rewrite C; reflexivity|]. cbn. rewrite upd_same. auto.
    - exists [], s1. split; [constructor|]. split; [reflexivity|]. auto. }
  destruct X as (k2 & s2 & F2 & G2 & U2 & C2).
  assert (R2 : run cube ts ((k2 ++ k1) ++ h) = Ok s2) by (rewrite (go_run h s _ H), (go_app k2 k1 s s1 G1); exact G2).
  assert (SF2 : safe s2). { apply (go_safe (k2 ++ k1) s s2); [apply Forall_app; split; assumption|apply (run_safe h s EL H)|]. rewrite (go_app k2 k1 s s1 G1). exact G2. }
  pose proof (run_wf _ s2 R2) as W2.
  destruct (drain_all (thrs s2) [] s2 eq_refl (Forall_nil _) SF2 (w_h s2 W2)) as (k3 & s3 & F3 & G3 & S3 & SF3 & T3). cbn in T3.
  destruct S3 as (_ & U3 & IN3 & C3 & Q3).
  assert (R3 : run cube ts (k3 ++ (k2 ++ k1) ++ h) = Ok s3) by (rewrite (go_run _ s2 _ R2); exact G3).
  pose proof (run_wf _ s3 R3) as W3.
  (* fetch *)
  assert (ID3 : Forall idle (thrs s3)). { rewrite T3. apply Forall_forall. intros a A. apply in_map_iff in A. destruct A as (b & <- & _). repeat split. }
  assert (X : exists k s4, Forall inner k /\ go s3 k = Ok s4 /\ unsaid s4 f = 0 /\ checking s4 f = false /\ evq s4 (cube f) = [] /\ Forall idle (thrs s4)).
  { destruct (evq s3 (cube f)) as [|e es] eqn:Q.
    - exists [], s3. split; [constructor|]. split; [reflexivity|]. rewrite U3, C3. auto.
    - assert (CT3 : In (cube f) (map qc (thrs s3))) by (rewrite (w_s s3 W3); exact CT). apply in_map_iff in CT3. destruct CT3 as (a & QA & A).
      apply in_split in A. destruct A as (l1 & l2 & TA). assert (IA : idle a) by (rewrite Forall_forall in ID3; apply ID3; rewrite TA; apply in_app_iff; right; left; reflexivity).
      destruct IA as (EA & CA & HA).
      set (s4 := St (live s3) (ring s3) (unsaid s3) (inset s3) (checking s3) (upd (evq s3) (qc a) []) (l1 ++ Thr (qc a) (e :: es) None None :: l2) (out s3)).
      assert (ST : step cube s3 (Fetch (length l1)) = Ok s4). { cbn. unfold with_thr. rewrite TA, at_len, EA, CA, HA, QA, Q. unfold s4. rewrite QA. reflexivity. }
      assert (SF4 : safe s4). { apply (step_safe s3 _ s4 SF3 ST). discriminate. }
      destruct (drain1 (work (Thr (qc a) (e :: es) None None)) l1 (Thr (qc a) (e :: es) None None) l2 s4 eq_refl (le_n _) SF4 (or_introl eq_refl)) as (k & s5 & F & G & (_ & U5 & _ & C5 & Q5) & _ & T5).
      exists (k ++ [Fetch (length l1)]), s5. split; [apply Forall_app; split; [exact F|constructor; [exact I|constructor]]|].
      split; [rewrite (go_app k [Fetch (length l1)] s3 s4); [exact G|exact ST]|]. rewrite U5, C5, Q5. cbn. rewrite U3, C3, <- QA, upd_same. split; [exact U2|]. split; [exact C2|].
      split; [reflexivity|]. rewrite T5. rewrite TA in ID3. apply Forall_app in ID3. destruct ID3 as (D1 & D2). inversion D2. subst.
      apply Forall_app. split; [exact D1|]. constructor; [repeat split|assumption]. }
  destruct X as (k4 & s4 & F4 & G4 & U4 & C4 & Q4 & ID4).
  exists (k4 ++ k3 ++ k2 ++ k1), s4. assert (F : Forall inner (k4 ++ k3 ++ k2 ++ k1)) by (repeat (apply Forall_app; split; [assumption|]); assumption).
  assert (R4 : run cube ts ((k4 ++ k3 ++ k2 ++ k1) ++ h) = Ok s4). { rewrite <- !app_assoc in *. rewrite (go_run _ s3 k4 R3). exact G4. }
  split; [exact F|]. split; [exact R4|]. pose proof (run_wf _ s4 R4) as W4.
  assert (INS : inset s4 f = true).
  { assert (Z : forall k s0 s', Forall inner k -> go s0 k = Ok s' -> inset s' f = inset s0 f).
    { induction k as [|e k IHk]; intros s0 s' FK GK; cbn in GK; [injection GK as <-; reflexivity|]. inversion FK as [|? ? FK1 FK2]. subst.
      destruct (go s0 k) as [sm| |] eqn:GM; try discriminate GK. destruct (step_inset sm e s' f GK (inner_stays f e FK1)) as (Y & _). rewrite Y. apply (IHk s0 sm FK2 GM). }
    rewrite (Z k4 s3 s4 F4 G4), (Z k3 s2 s3 F3 G3), (Z k2 s1 s2 F2 G2), I1. exact IN. }
  assert (ST : still s4 f).
  { split; [exact U4|]. split; [exact C4|]. split.
    - intros c I. assert (cube f = c) as <- by (apply (w_q s4 W4), I). rewrite Q4 in I. elim I.
    - apply Forall_forall. intros a A. rewrite Forall_forall in ID4. destruct (ID4 a A) as (-> & -> & _). split; [intros []|discriminate]. }
  assert (AE4 : added_early cube ts ((k4 ++ k3 ++ k2 ++ k1) ++ h)) by (apply inner_early; assumption).
  pose proof (psched_nothing_stays_partial _ s4 f AE4 R4 INS ST) as RE. pose proof (psched_conserved _ s4 f R4) as P.
  rewrite RE, inner_written, app_nil_r in P by exact F.
  assert (HN : hands s4 f = []).
  { rewrite hands_eq. clear - ID4. induction (thrs s4) as [|a l IH]; [reflexivity|]. inversion ID4 as [|? ? (X & Y & Z) D]. subst. cbn. rewrite IH by exact D. unfold in_hand. rewrite Z. reflexivity. }
  rewrite HN, app_nil_r in P. exact P.
Qed.
End P.

(** ** With the default threads *)
Definition one (f : nat) := 0.
(** Two packets that wait when the flow is added: one stays for ever. *)
Definition late_add := [Call 0; Read 0; Next 0; Fetch 0; Check 7; Add 7; Notify 7; Write 7 2; Notify 7; Write 7 1].
Theorem psched_nothing_stays_refuted :
  ~ (forall h s f, run one default_threads h = Ok s -> inset s f = true -> still s f -> ring s f = []).
Proof.
  intros F. specialize (F late_add). destruct (run one default_threads late_add) as [s| |] eqn:R; [|vm_compute in R; discriminate R|vm_compute in R; discriminate R].
  specialize (F s 7 eq_refl). vm_compute in R. injection R as <-. cbn in F.
  assert (X : [2] = []); [|discriminate X]. apply F; [reflexivity|]. split; [reflexivity|]. split; [reflexivity|]. split.
  - intros c X. destruct c; cbn in X; exact X.
  - repeat (constructor; [split; [intros []|discriminate]|]). constructor.
Qed.
(** Two threads of a cube turn two packets around. *)
Definition race := [Call 3; Read 3; Next 3; Fetch 3; Notify 7; Write 7 2; Read 0; Next 0; Fetch 0; Notify 7; Write 7 1; Check 7; Add 7].
Theorem psched_order_refuted :
  ~ (forall h s f, added_early one default_threads h -> run one default_threads h = Ok s ->
       exists l, written h f = handed s f ++ l).
Proof.
  intros F. specialize (F race). destruct (run one default_threads race) as [s| |] eqn:R; [|vm_compute in R; discriminate R|vm_compute in R; discriminate R].
  destruct (F s 7) as (l & X); [|reflexivity|].
  - cbn -[run]. repeat split. intros s0 H. vm_compute in H. injection H as <-. vm_compute. apply Nat.le_0_l.
  - vm_compute in R. injection R as <-. vm_compute in X. discriminate X.
Qed.
(** A flow that is deallocated between event and read ends the IPCP. *)
Theorem psched_no_abort_refuted : ~ (forall h, run one default_threads h <> Crash).
Proof.
  intros F. apply (F [Read 0; Fini 7; Next 0; Fetch 0; Notify 7; Write 7 1; Check 7; Add 7]). vm_compute. reflexivity.
Qed.

(** ** Cases *)
Example psched_cases :
  (* flows that are added early, and deallocated late *)
  added_early one default_threads race /\ ended_late one default_threads race /\
  (exists s, run one default_threads race = Ok s /\ inset s 7 = true /\ In (one 7) default_threads) /\
  (* a still flow with a packet left, which is there after more packets *)
  (exists s s', run one default_threads late_add = Ok s /\ ring s 7 = [2] /\ handed s 7 = [1] /\
     run one default_threads ([Call 3; Read 3; Next 3; Fetch 3; Notify 7; Write 7 3] ++ late_add) = Ok s' /\ ring s' 7 = [3] /\ handed s' 7 = [1; 2]) /\
  (* one thread per cube *)
  NoDup [0; 1; 2].
Proof.
  split; [cbn -[run]; repeat split; intros s0 H; vm_compute in H; injection H as <-; vm_compute; apply Nat.le_0_l|].
  split; [cbn -[run]; repeat split|].
  split; [eexists; split; [vm_compute; reflexivity|split; [reflexivity|vm_compute; left; reflexivity]]|].
  split; [eexists; eexists; split; [vm_compute; reflexivity|]; split; [reflexivity|]; split; [reflexivity|]; split; [vm_compute; reflexivity|split; reflexivity]|].
  repeat constructor; cbn; intros X; decompose [or] X; try discriminate; try assumption.
Qed.

Print Assumptions psched_conserved.
Print Assumptions psched_cube.
Print Assumptions psched_order_partial.
Print Assumptions psched_nothing_stays_partial.
Print Assumptions psched_backlog.
Print Assumptions psched_no_abort_partial.
Print Assumptions psched_delivers_partial.
Print Assumptions psched_nothing_stays_refuted.
Print Assumptions psched_order_refuted.
Print Assumptions psched_no_abort_refuted.
