From Coq Require Import List NArith ZArith Bool Lia ZifyN ZifyBool.
From Verif Require Import ShimModel ShimSpec.
Import ListNotations.
Open Scope N_scope.

Lemma heqb_eq : forall a b, heqb a b = true <-> a = b.
Proof.
  induction a as [|x a IH]; destruct b as [|y b]; cbn [heqb]; try (split; [discriminate|discriminate]).
  - split; auto.
  - rewrite andb_true_iff, IH, N.eqb_eq. split; [intros [-> ->]; auto|intros [= -> ->]; auto].
Qed.
Lemma heqb_refl : forall a, heqb a a = true.
Proof. intros. apply heqb_eq. reflexivity. Qed.
Lemma heqb_neq : forall a b, heqb a b = false <-> a <> b.
Proof.
  intros a b. pose proof (heqb_eq a b) as H. destruct (heqb a b).
  - split; [discriminate|]. intros N. exfalso. apply N, H. reflexivity.
  - split; auto. intros _ E. apply H in E. discriminate.
Qed.

(** ** Registry *)
Lemma find_reg_in : forall l h, find_reg l h = true <-> In h l.
Proof.
  induction l as [|x l IH]; intros h; cbn [find_reg In].
  - split; [discriminate|tauto].
  - destruct (heqb x h) eqn:E.
    + apply heqb_eq in E. split; auto.
    + apply heqb_neq in E. rewrite IH. split; [auto|]. intros [?|?]; [contradiction|auto].
Qed.
Lemma del_reg_in : forall l h x, NoDup l -> (In x (del_reg l h) <-> In x l /\ x <> h).
Proof.
  induction l as [|y l IH]; intros h x Hn; cbn [del_reg In]; [tauto|].
  inversion Hn; subst. destruct (heqb y h) eqn:E.
  - apply heqb_eq in E. subst y. split.
    + intros Hi. split; auto. intros ->. contradiction.
    + intros [[->|Hi] Hx]; [contradiction|auto].
  - apply heqb_neq in E. cbn [In]. rewrite IH by auto. split.
    + intros [->|[? ?]]; auto.
    + intros [[->|?] ?]; auto.
Qed.
Lemma del_reg_nodup : forall l h, NoDup l -> NoDup (del_reg l h).
Proof.
  induction l as [|y l IH]; intros h Hn; cbn [del_reg]; auto. inversion Hn; subst.
  destruct (heqb y h); auto. constructor; auto. rewrite del_reg_in by auto. tauto.
Qed.

(** ** Directory *)
Definition of_name (l : list (hash * N)) (h : hash) : list N :=
  map snd (filter (fun p => heqb (fst p) h) l).
Lemma of_name_cons : forall x b l h,
  of_name ((x, b) :: l) h = if heqb x h then b :: of_name l h else of_name l h.
Proof. intros. unfold of_name. cbn [filter fst]. destruct (heqb x h); reflexivity. Qed.
Lemma find_any_of : forall l h, find_any l h = match of_name l h with [] => None | a :: _ => Some a end.
Proof.
  induction l as [|[x b] l IH]; intros h; cbn [find_any]; auto.
  rewrite of_name_cons. destruct (heqb x h); auto.
Qed.
Lemma find_dir_of : forall l h a, find_dir l h a = true <-> In a (of_name l h).
Proof.
  induction l as [|[x b] l IH]; intros h a; cbn [find_dir].
  - split; [discriminate|]. intros [].
  - rewrite of_name_cons. destruct (b =? a) eqn:Eb; destruct (heqb x h) eqn:Eh; cbn [andb].
    + apply N.eqb_eq in Eb. split; auto. left. auto.
    + apply IH.
    + rewrite IH. cbn [In]. apply N.eqb_neq in Eb. split; auto. intros [?|?]; [contradiction|auto].
    + apply IH.
Qed.
Lemma filter_all : forall (l : list N) b, ~ In b l -> filter (fun a => negb (a =? b)) l = l.
Proof.
  induction l as [|x l IH]; intros b H; cbn [filter]; auto. cbn [In] in H.
  destruct (N.eqb_spec x b); [subst; tauto|]. cbn [negb]. f_equal. apply IH. tauto.
Qed.
Lemma of_name_del : forall l h a h', NoDup (of_name l h) ->
  of_name (del_dir l h a) h' =
  if heqb h h' then filter (fun x => negb (x =? a)) (of_name l h') else of_name l h'.
Proof.
  induction l as [|[x b] l IH]; intros h a h' Hn; cbn [del_dir].
  - destruct (heqb h h'); reflexivity.
  - rewrite of_name_cons in Hn. destruct (b =? a) eqn:Eb; destruct (heqb x h) eqn:Ex; cbn [andb].
    + apply N.eqb_eq in Eb. apply heqb_eq in Ex. subst x b. inversion Hn; subst.
      rewrite of_name_cons. destruct (heqb h h') eqn:Eh; [|reflexivity].
      apply heqb_eq in Eh. subst h'. cbn [filter]. rewrite N.eqb_refl. cbn [negb].
      symmetry. apply filter_all; auto.
    + rewrite !of_name_cons, IH by auto. destruct (heqb x h') eqn:Exh; [|reflexivity].
      apply heqb_eq in Exh. subst h'. destruct (heqb h x) eqn:Eh; [|reflexivity].
      apply heqb_eq in Eh. subst. rewrite heqb_refl in Ex. discriminate.
    + inversion Hn; subst. rewrite !of_name_cons, IH by auto. apply heqb_eq in Ex. subst x.
      destruct (heqb h h'); [|reflexivity]. cbn [filter]. rewrite Eb. reflexivity.
    + rewrite !of_name_cons, IH by auto. destruct (heqb x h') eqn:Exh; [|reflexivity].
      apply heqb_eq in Exh. subst h'. destruct (heqb h x) eqn:Eh; [|reflexivity].
      apply heqb_eq in Eh. subst. rewrite heqb_refl in Ex. discriminate.
Qed.

Lemma present_addrs : forall hist h a, present hist h a = true <-> In a (addrs hist h).
Proof.
  induction hist as [|o hist IH]; intros h a; cbn [present addrs].
  - split; [discriminate|intros []].
  - destruct o; auto.
    + destruct (heqb h0 h) eqn:E; cbn [andb]; auto.
      apply heqb_eq in E. subst h0. destruct (N.eqb_spec a0 a) as [->|Hne].
      * split; auto. intros _. destruct (present hist h a) eqn:Ep; cbn [negb].
        { apply IH. exact Ep. } left; reflexivity.
      * rewrite IH. destruct (present hist h a0); cbn [negb]; [tauto|]. cbn [In]. tauto.
    + destruct (heqb h0 h) eqn:E; cbn [andb]; auto.
      rewrite filter_In. destruct (N.eqb_spec a0 a) as [->|Hne].
      * split; [discriminate|]. intros [_ H]. rewrite N.eqb_refl in H. discriminate.
      * rewrite IH. split; [intros H; split; auto; lia|tauto].
Qed.
Lemma nodup_filter : forall (l : list N) f, NoDup l -> NoDup (filter f l).
Proof.
  induction l as [|x l IH]; intros f H; cbn [filter]; auto. inversion H; subst.
  destruct (f x); auto. constructor; auto. rewrite filter_In. tauto.
Qed.
Lemma addrs_nodup : forall hist h, NoDup (addrs hist h).
Proof.
  induction hist as [|o hist IH]; intros h; cbn [addrs]; [constructor|]. destruct o; auto.
  - destruct (heqb h0 h && negb (present hist h a)) eqn:E; auto. constructor; auto.
    rewrite <- present_addrs. destruct (present hist h a); [|discriminate].
    rewrite andb_false_r in E. discriminate.
  - destruct (heqb h0 h); auto. apply nodup_filter. auto.
Qed.

Record Inv (s : shim) (hist : list op) : Prop := {
  i_nodup : NoDup (registry s);
  i_reg : forall h, find_reg (registry s) h = registered hist h;
  i_dir : forall h, of_name (directory s) h = addrs hist h
}.

Lemma find_dir_present : forall s hist h a, Inv s hist -> find_dir (directory s) h a = present hist h a.
Proof.
  intros s hist h a I. pose proof (find_dir_of (directory s) h a) as A.
  rewrite (i_dir _ _ I) in A. rewrite <- present_addrs in A.
  destruct (find_dir _ _ _), (present _ _ _); try reflexivity.
  - symmetry. apply A. reflexivity.
  - apply A. reflexivity.
Qed.

Lemma step_ok : forall s hist o, Inv s hist ->
  snd (step s o) = spec_res hist o /\ Inv (fst (step s o)) (o :: hist).
Proof.
  intros s hist o I. destruct o; cbn [step spec_res].
  - (* RegAdd *) destruct (find_reg (registry s) h) eqn:E; cbn [fst snd]; (split; [reflexivity|]).
    + constructor; [apply I| |apply I]. intros x. cbn [registered].
      destruct (heqb h x) eqn:Ex; [apply heqb_eq in Ex; subst; exact E|apply I].
    + constructor; cbn [registry directory]; [| |apply I].
      * constructor; [|apply I]. rewrite <- find_reg_in. congruence.
      * intros x. cbn [find_reg registered]. destruct (heqb h x); [reflexivity|apply I].
  - (* RegDel *) destruct (find_reg (registry s) h) eqn:E; cbn [fst snd]; (split; [reflexivity|]).
    + constructor; cbn [registry directory]; [apply del_reg_nodup, I| |apply I].
      intros x. cbn [registered]. destruct (heqb h x) eqn:Ex.
      * apply heqb_eq in Ex. subst x. destruct (find_reg (del_reg (registry s) h) h) eqn:F; [|reflexivity].
        apply find_reg_in in F. apply del_reg_in in F; [tauto|apply I].
      * apply heqb_neq in Ex. rewrite <- (i_reg _ _ I).
        pose proof (del_reg_in (registry s) h x (i_nodup _ _ I)) as D.
        rewrite <- !find_reg_in in D.
        destruct (find_reg (del_reg _ _) x), (find_reg (registry s) x); try reflexivity.
        { symmetry. apply D. reflexivity. } { apply D. split; [reflexivity|congruence]. }
    + constructor; [apply I| |apply I]. intros x. cbn [registered].
      destruct (heqb h x) eqn:Ex; [apply heqb_eq in Ex; subst; exact E|apply I].
  - cbn [fst snd]. rewrite (i_reg _ _ I). split; [reflexivity|]. constructor; apply I.
  - (* DirAdd *) rewrite (find_dir_present s hist h a I).
    destruct (present hist h a) eqn:E; cbn [fst snd]; (split; [reflexivity|]).
    + constructor; [apply I|apply I|]. intros x. cbn [addrs].
      destruct (heqb h x) eqn:Ex; cbn [andb]; [|apply I]. apply heqb_eq in Ex. subst x.
      rewrite E. cbn [negb]. apply I.
    + constructor; cbn [registry directory]; [apply I|apply I|]. intros x.
      rewrite of_name_cons. cbn [addrs]. destruct (heqb h x) eqn:Ex; cbn [andb]; [|apply I].
      apply heqb_eq in Ex. subst x. rewrite E. cbn [negb]. f_equal. apply I.
  - (* DirDel *) rewrite (find_dir_present s hist h a I).
    destruct (present hist h a) eqn:E; cbn [fst snd]; (split; [reflexivity|]).
    + constructor; cbn [registry directory]; [apply I|apply I|]. intros x.
      rewrite of_name_del by (rewrite (i_dir _ _ I); apply addrs_nodup).
      cbn [addrs]. rewrite (i_dir _ _ I). reflexivity.
    + constructor; [apply I|apply I|]. intros x. cbn [addrs].
      destruct (heqb h x) eqn:Ex; [|apply I]. apply heqb_eq in Ex. subst x.
      rewrite filter_all; [apply I|]. rewrite <- present_addrs. congruence.
  - cbn [fst snd]. rewrite find_any_of, (i_dir _ _ I).
    split; [destruct (addrs hist h); reflexivity|]. constructor; apply I.
  - cbn [fst snd]. rewrite find_any_of, (i_dir _ _ I).
    split; [destruct (addrs hist h); reflexivity|]. constructor; apply I.
Qed.

Lemma run_ok : forall ops s hist, Inv s hist -> run s ops = spec_run hist ops.
Proof.
  induction ops as [|o ops IH]; intros s hist I; cbn [run spec_run]; auto.
  pose proof (step_ok s hist o I) as [R I']. destruct (step s o) as [s1 r]. cbn [fst snd] in *.
  rewrite R. f_equal. apply IH. exact I'.
Qed.
Lemma inv0 : Inv shim_create [].
Proof. constructor; try reflexivity. constructor. Qed.

(** ** Queries *)
Definition all (s : qsys) : list query := listed s ++ unlisted s.
Record QInv (s : qsys) (hist : list qlabel) : Prop := {
  q_ids : NoDup (map qid (all s));
  q_hash : forall e, In e (all s) -> created hist (qid e) = Some (qhash e);
  q_resp : forall e, In e (all s) -> qst e = QResponse -> answered hist (qid e) (qhash e) = true
}.

Lemma set_q_ids : forall l q st, map qid (set_q l q st) = map qid l.
Proof.
  intros. unfold set_q. rewrite map_map. apply map_ext. intros e. destruct (qid e =? q); reflexivity.
Qed.
Lemma in_set_q : forall l q st e, In e (set_q l q st) ->
  exists d, In d l /\ qid e = qid d /\ qhash e = qhash d /\
    (if qid d =? q then qst e = st else qst e = qst d).
Proof.
  intros l q st e H. unfold set_q in H. apply in_map_iff in H. destruct H as (d & E & Hi).
  exists d. split; [exact Hi|]. destruct (qid d =? q) eqn:Ei; subst e; cbn; auto.
Qed.
Lemma all_set_state : forall s q st, all (set_state s q st) = set_q (all s) q st.
Proof. intros. unfold all, set_state, set_q. cbn [listed unlisted]. rewrite map_app. reflexivity. Qed.
Lemma all_notify : forall s q, all (notify s q) = all s.
Proof. intros. unfold notify. destruct (holder s); [destruct (_ =? _)|]; reflexivity. Qed.

Lemma get_q_in : forall s q e, get_q s q = Some e -> In e (all s) /\ qid e = q.
Proof. intros s q e H. apply find_some in H. destruct H. split; auto. lia. Qed.
Lemma get_q_none : forall s q e, get_q s q = None -> In e (all s) -> qid e <> q.
Proof. intros s q e H Hi. apply (find_none _ _ H) in Hi. lia. Qed.

Lemma del_q_ids : forall l q, map qid (del_q l q) = filter (fun x => negb (x =? q)) (map qid l).
Proof.
  induction l as [|e l IH]; intros q; unfold del_q in *; cbn [filter map]; auto.
  destruct (negb (qid e =? q)); cbn [map]; rewrite IH; reflexivity.
Qed.

(** Nothing but a new wait of the query itself takes an answer away. *)
Lemma answered_mono : forall hist l q h, answered hist q h = true ->
  (forall p, l = LWait p true -> p <> q) -> answered (l :: hist) q h = true.
Proof.
  intros hist l q h H Hl. cbn [answered]. destruct l; auto.
  - destruct (heqb h0 h); auto.
  - destruct ok; auto. destruct (N.eqb_spec q0 q); auto. exfalso. exact (Hl q0 eq_refl e).
Qed.

Lemma in_del_q : forall l q e, In e (del_q l q) -> In e l /\ qid e <> q.
Proof. intros l q e H. unfold del_q in H. apply filter_In in H. destruct H. split; auto. lia. Qed.

Lemma qstep_inv : forall s hist l s', QInv s hist -> qstep s l s' -> QInv s' (l :: hist).
Proof.
  intros s hist l s' I S. inversion S; subst; clear S.
  - (* create *)
    constructor; unfold all; cbn [listed unlisted app map].
    + constructor; [|apply I]. cbn [qid]. rewrite in_map_iff. intros (e & E & Hi).
      exact (get_q_none _ _ _ H0 Hi E).
    + intros e [<-|Hi]; cbn [created qid qhash]; [rewrite N.eqb_refl; reflexivity|].
      pose proof (get_q_none _ _ _ H0 Hi). destruct (N.eqb_spec q (qid e)); [congruence|]. apply I; auto.
    + intros e [<-|Hi] R; [discriminate|]. cbn [answered]. apply I; auto.
  - (* respond *)
    apply find_some in H0. destruct H0 as [Hi0 Hh]. apply heqb_eq in Hh.
    assert (NI : NoDup (map qid (all s))) by apply I.
    constructor; unfold all; cbn [listed unlisted].
    + rewrite map_app, set_q_ids, <- map_app. exact NI.
    + intros d Hi. cbn [created]. apply in_app_iff in Hi. destruct Hi as [Hi|Hi].
      * apply in_set_q in Hi. destruct Hi as (d0 & Hi & -> & -> & _). apply I. apply in_app_iff. auto.
      * apply I. apply in_app_iff. auto.
    + intros d Hi R. apply in_app_iff in Hi. destruct Hi as [Hi|Hi].
      * apply in_set_q in Hi. destruct Hi as (d0 & Hi & -> & -> & Hs). cbn [answered].
        destruct (N.eqb_spec (qid d0) (qid e)) as [Ei|Ei].
        { assert (d0 = e) as ->; [|rewrite Hh, heqb_refl; reflexivity].
          assert (A1 : In d0 (all s)) by (apply in_app_iff; auto).
          assert (A2 : In e (all s)) by (apply in_app_iff; auto).
          clear -NI A1 A2 Ei. induction (all s) as [|x l IH]; [destruct A1|].
          cbn [map] in NI. inversion NI; subst. destruct A1 as [->|A1], A2 as [->|A2]; auto.
          - exfalso. apply H1. rewrite Ei. apply in_map. auto.
          - exfalso. apply H1. rewrite <- Ei. apply in_map. auto. }
        { rewrite Hs in R. destruct (heqb h (qhash d0)); [reflexivity|].
          apply I; [apply in_app_iff; auto|exact R]. }
      * cbn [answered]. destruct (heqb h (qhash d)); [reflexivity|].
        apply I; [apply in_app_iff; auto|exact R].
  - (* respond, nothing *)
    constructor; [apply I| |].
    + intros e Hi. cbn [created]. apply I; auto.
    + intros e Hi R. cbn [answered]. destruct (heqb h (qhash e)); [reflexivity|]. apply I; auto.
  - (* wait *)
    constructor; rewrite all_set_state.
    + rewrite set_q_ids. apply I.
    + intros d Hi. cbn [created]. apply in_set_q in Hi. destruct Hi as (d0 & Hi & -> & -> & _). apply I; auto.
    + intros d Hi R. apply in_set_q in Hi. destruct Hi as (d0 & Hi & Eq & Eh & Hs).
      destruct (N.eqb_spec (qid d0) q) as [Ei|Ei]; [congruence|].
      rewrite Eq, Eh. apply answered_mono; [apply I; auto; congruence|]. intros p [= <-]. auto.
  - (* wait, invalid *)
    constructor; [apply I| |].
    + intros d Hi. cbn [created]. apply I; auto.
    + intros d Hi R. cbn [answered]. apply I; auto.
  - (* wait end *)
    constructor; rewrite all_notify, all_set_state.
    + rewrite set_q_ids. apply I.
    + intros d Hi. cbn [created]. apply in_set_q in Hi. destruct Hi as (d0 & Hi & -> & -> & _). apply I; auto.
    + intros d Hi R. apply in_set_q in Hi. destruct Hi as (d0 & Hi & Eq & Eh & Hs).
      destruct (N.eqb_spec (qid d0) q) as [Ei|Ei]; [congruence|].
      rewrite Eq, Eh. cbn [answered]. apply I; auto; congruence.
  - (* destroy *)
    constructor; unfold all; cbn [listed unlisted].
    + pose proof (q_ids _ _ I) as ND. unfold all in ND. rewrite map_app in *. rewrite del_q_ids.
      clear -ND. induction (map qid (listed s)) as [|x l IH]; cbn [filter app] in *; auto.
      inversion ND; subst. destruct (negb (x =? q)); cbn [app]; auto. constructor; auto.
      rewrite in_app_iff in *. rewrite filter_In. tauto.
    + intros d Hi. cbn [created]. apply I. apply in_app_iff in Hi. apply in_app_iff.
      destruct Hi as [Hi|Hi]; [left; apply in_del_q in Hi; tauto|right; auto].
    + intros d Hi R. cbn [answered]. apply I; auto. apply in_app_iff in Hi. apply in_app_iff.
      destruct Hi as [Hi|Hi]; [left; apply in_del_q in Hi; tauto|right; auto].
  - (* destroy, pending *)
    apply find_some in H0. destruct H0 as [Hi0 Hq]. assert (qid e = q) by lia. subst q. clear Hq.
    constructor; unfold all; cbn [listed unlisted].
    + pose proof (q_ids _ _ I) as ND. unfold all in ND. rewrite map_app in *. rewrite del_q_ids.
      cbn [map qid]. assert (Hin : In (qid e) (map qid (listed s))) by (apply in_map; auto).
      apply (proj2 (NoDup_Add (Add_app (qid e) _ _))). split.
      * clear -ND. induction (map qid (listed s)) as [|x l IH]; cbn [filter app] in *; auto.
        inversion ND; subst. destruct (negb (x =? qid e)); cbn [app]; auto. constructor; auto.
        rewrite in_app_iff in *. rewrite filter_In. tauto.
      * rewrite in_app_iff, filter_In. intros [[_ F]|F]; [lia|].
        clear -ND Hin F. induction (map qid (listed s)) as [|x l IH]; [destruct Hin|].
        cbn [app] in ND. inversion ND; subst. destruct Hin as [->|Hin].
        { apply H1. apply in_app_iff. auto. } { apply IH; auto. }
    + intros d Hi. cbn [created]. apply in_app_iff in Hi. destruct Hi as [Hi|[<-|Hi]].
      * apply in_del_q in Hi. apply I. apply in_app_iff. tauto.
      * cbn [qid qhash]. apply I. apply in_app_iff. auto.
      * apply I. apply in_app_iff. auto.
    + intros d Hi R. cbn [answered]. apply in_app_iff in Hi. destruct Hi as [Hi|[<-|Hi]].
      * apply in_del_q in Hi. apply I; auto. apply in_app_iff. tauto.
      * discriminate.
      * apply I; auto. apply in_app_iff. auto.
Qed.

Lemma qreach_inv : forall s hist, qreach s hist -> QInv s hist.
Proof.
  induction 1.
  - constructor; cbn; try constructor; intros e [].
  - eapply qstep_inv; eauto.
Qed.

Lemma answer_sound : forall s hist s' q timedout, qreach s hist ->
  qstep s (LWaitEnd q timedout 0) s' ->
  exists h, created hist q = Some h /\ answered hist q h = true.
Proof.
  intros s hist s' q timedout R S. apply qreach_inv in R. inversion S; subst.
  match goal with H : get_q s q = Some e |- _ => apply get_q_in in H; destruct H as [Hi <-] end.
  exists (qhash e). split; [apply R; auto|]. apply R; auto.
  match goal with H : _ \/ _ \/ _ |- _ => destruct H as [?|[E|[E ->]]]; auto end;
    match goal with H : 0%Z = _ |- _ => rewrite E in H; discriminate end.
Qed.

Lemma get_q_set : forall l q st e, NoDup (map qid l) -> In e l -> qid e = q ->
  find (fun x => qid x =? q) (set_q l q st) = Some (mk_q q (qhash e) st).
Proof.
  induction l as [|x l IH]; intros q st e ND Hi E; [destruct Hi|].
  cbn [map] in ND. inversion ND; subst. unfold set_q in *. cbn [map find].
  destruct Hi as [->|Hi].
  - rewrite N.eqb_refl. cbn [qid]. rewrite N.eqb_refl. reflexivity.
  - destruct (N.eqb_spec (qid x) (qid e)) as [E|E].
    + exfalso. apply H1. rewrite E. apply in_map. exact Hi.
    + destruct (N.eqb_spec (qid x) (qid e)); [contradiction|]. apply IH; auto.
Qed.

(** The only waiting query for a name is answered by a response. *)
Lemma answer_complete : forall s hist e s1, qreach s hist ->
  In e (listed s) -> qst e = QPending ->
  (forall d, In d (listed s) -> qhash d = qhash e -> d = e) ->
  qstep s (LRespond (qhash e)) s1 ->
  get_q s1 (qid e) = Some (mk_q (qid e) (qhash e) QResponse) /\
  (exists s2, qstep s1 (LWaitEnd (qid e) false 0) s2) /\
  (forall r s2, qstep s1 (LWaitEnd (qid e) false r) s2 -> r = 0%Z).
Proof.
  intros s hist e s1 R Hi Hp Hu S. apply qreach_inv in R.
  assert (F : find (fun d => heqb (qhash d) (qhash e)) (listed s) = Some e).
  { destruct (find _ (listed s)) as [d|] eqn:E.
    - apply find_some in E. destruct E as [Hd He]. apply heqb_eq in He. f_equal. auto.
    - apply (find_none _ _ E) in Hi. rewrite heqb_refl in Hi. discriminate. }
  inversion S; subst;
    [|exfalso; match goal with H : forall d, _ -> qst d <> QPending |- _ => exact (H e F Hp) end].
  match goal with H : find _ _ = Some ?d |- _ => 
    match d with e => fail 1 | _ => rewrite F in H; injection H as <- end end.
  assert (G : get_q (mk_qsys (set_q (listed s) (qid e) QResponse) (unlisted s) (Some (qid e))) (qid e)
              = Some (mk_q (qid e) (qhash e) QResponse)).
  { unfold get_q. cbn [listed unlisted].
    pose proof (q_ids _ _ R) as ND. unfold all in ND. rewrite map_app in ND.
    assert (ND1 : NoDup (map qid (listed s))).
    { clear -ND. induction (map qid (listed s)); [constructor|]. cbn [app] in ND.
      inversion ND; subst. constructor; auto. rewrite in_app_iff in *. tauto. }
    pose proof (get_q_set (listed s) (qid e) QResponse e ND1 Hi eq_refl) as G.
    clear -G. induction (set_q (listed s) (qid e) QResponse) as [|x l IH]; [discriminate|].
    cbn [find app] in *. destruct (qid x =? qid e); auto. }
  split; [exact G|]. split.
  - eexists. eapply q_wait_end; [exact G|left; reflexivity|reflexivity].
  - intros r s2 S2. inversion S2; subst.
    match goal with H : get_q _ _ = Some ?d |- _ => 
      match d with mk_q _ _ _ => fail 1 | _ => rewrite G in H; injection H as <- end end.
    reflexivity.
Qed.
