(** Property theorems about the registry of the IRM daemon: C37 (which
    accepting process gets a flow) and the requests that abort the daemon
    (C73). *)

From Coq Require Import List NArith ZArith Bool String Lia.
From Coq Require Import ZifyBool ZifyNat ZifyN.
From Verif Require Import BitmapModel RegModel RegSpec RegProofs RegBindProofs.
Import ListNotations.
Open Scope string_scope.
Open Scope list_scope.
Open Scope Z_scope.

(** ** What one operation does to the waiting processes of a name *)

Inductive act_step (pol : lb) (l : list N) : list N -> Prop :=
| act_same : act_step pol l l
| act_add x : ~ In x l -> act_step pol l (match pol with LbRR => l ++ [x] | LbSpill => x :: l end)
| act_del x : act_step pol l (del_all x l).

Definition name_step (n n' : rname) : Prop :=
  n_name n' = n_name n /\ n_lb n' = n_lb n /\ act_step (n_lb n) (n_active n) (n_active n').

Lemma name_step_refl n : name_step n n.
Proof. repeat split. constructor. Qed.

Lemma del_all_none x l : ~ In x l -> del_all x l = l.
Proof.
  induction l as [|a t IH]; cbn; intros H; [reflexivity|].
  destruct (x =? a)%N eqn:E; [exfalso; apply H; left; lia|]. cbn. f_equal. apply IH. tauto.
Qed.

Lemma del_first_all x l : NoDup l -> del_first (N.eqb x) l = del_all x l.
Proof.
  induction l as [|a t IH]; cbn; intros H; [reflexivity|]. inversion H; subst.
  destruct (x =? a)%N eqn:E; cbn; [|f_equal; auto].
  symmetry. apply del_all_none. replace x with a by lia. assumption.
Qed.

Lemma act_step_nodup pol l l' : act_step pol l l' -> NoDup l -> NoDup l'.
Proof.
  intros [|x Hx|x] Hn; [exact Hn| |apply NoDup_filter; exact Hn].
  destruct pol; [|constructor; assumption].
  clear - Hx Hn. induction l as [|a t IH]; cbn; [constructor; [intros []|constructor]|].
  inversion Hn; subst. constructor; [|apply IH; cbn in Hx; tauto].
  rewrite in_app_iff. intros [H|[H|[]]]; [auto|]. apply Hx. left. congruence.
Qed.

(** The invariant: no process is listed twice as waiting. *)
Definition once (r : reg) : Prop := forall n, In n (r_names r) -> NoDup (n_active n).

(** How an operation changes the names. *)
Definition names_step (r r' : reg) : Prop :=
  forall n', In n' (r_names r') ->
    n_active n' = [] \/ exists n, In n (r_names r) /\ name_step n n'.

Definition names_keep (r r' : reg) : Prop :=
  forall n n', In n (r_names r) -> In n' (r_names r') -> n_name n = n_name n' -> name_step n n'.

Lemma forall2_names r r' : ninv r -> Forall2 name_step (r_names r) (r_names r') ->
  names_step r r' /\ names_keep r r'.
Proof.
  intros I F. split.
  - intros n' Hn. destruct (forall2_in _ _ _ _ F Hn) as (n & H1 & H2). eauto.
  - intros n n' Hn Hn' E. destruct (forall2_in _ _ _ _ F Hn') as (m & H1 & H2).
    assert (m = n) as <-; [|exact H2].
    destruct H2 as (H2 & _). apply (key_eq n_name (r_names r)); [apply I|auto|auto|congruence].
Qed.

Lemma same_names r r' : r_names r' = r_names r -> Forall2 name_step (r_names r) (r_names r').
Proof. intros ->. induction (r_names r); constructor; auto using name_step_refl. Qed.

Lemma del_active_step pid r r' : once r -> del_active_proc pid r = Ok r' ->
  Forall2 name_step (r_names r) (r_names r').
Proof.
  intros O E. unfold del_active_proc in E. break. subst r'. cbn [set_names r_names].
  assert (O' : forall n, In n (r_names r) -> NoDup (n_active n)) by exact O. clear O.
  induction (r_names r) as [|n t IH]; cbn [map]; constructor.
  - split; [reflexivity|]. split; [reflexivity|]. cbn.
    rewrite del_first_all by (apply O'; left; reflexivity). constructor.
  - apply IH. intros m Hm. apply O'. right. exact Hm.
Qed.

Lemma an_end_step fin r f z r' rep : an_end fin -> once r -> fin r f z = Ok (r', rep) ->
  Forall2 name_step (r_names r) (r_names r').
Proof.
  intros [|] O E.
  - unfold wait_end in E. inversion E; subst. apply same_names. reflexivity.
  - unfold accept_end in E. destruct (del_active_proc _ r) as [r1|] eqn:Ed; [|discriminate E].
    unfold wait_end in E. inversion E; subst. exact (del_active_step _ _ _ O Ed).
Qed.

Lemma wake_step fin r id tag to pend r' rep : an_end fin -> once r ->
  wake r id tag to pend fin = Ok (r', rep) -> Forall2 name_step (r_names r) (r_names r').
Proof.
  intros A O E. unfold wake in E. destruct (get_flow r id) as [f|]; [|discriminate E]. break.
  destruct to.
  - destruct (flow_update _ _ _) as [[[g i] z]|]; [|discriminate E].
    exact (an_end_step fin (put_flow g r) _ _ _ _ A O E).
  - unfold wait_look in E. destruct (fstate_eqb _ _).
    + inversion E; subst. apply same_names. reflexivity.
    + destruct (f_st f); try discriminate E; eapply an_end_step; eauto.
Qed.

Lemma add_active_step pid r r' : (forall s, ~ waits r s pid) -> add_active_proc pid r = Ok r' ->
  Forall2 name_step (r_names r) (r_names r') /\ r_flows r' = r_flows r.
Proof.
  intros W E. unfold add_active_proc in E. break.
  destruct (map_names _ _) as [l|] eqn:Em; [|discriminate E]. injection E as <-.
  split; [|reflexivity]. cbn [set_names r_names]. apply map_names_ok in Em.
  assert (W' : forall n, In n (r_names r) -> ~ In pid (n_active n)).
  { intros n Hn Hp. apply (W (n_name n)). exists n. auto. }
  clear W. induction Em as [|n n' t t' En _ IH]; constructor.
  - destruct (has_pid pid (n_procs n)).
    + unfold name_add_active in En. break. subst n'. split; [reflexivity|]. split; [reflexivity|].
      cbn. apply act_add. apply W'. left. reflexivity.
    + injection En as <-. apply name_step_refl.
  - apply IH. intros m Hm. apply W'. right. exact Hm.
Qed.

Lemma list_ins_step r l n0 : n_active n0 = [] ->
  (forall m, In m l <-> m = n0 \/ In m (r_names r)) ->
  (forall m, In m (r_names r) -> n_name m <> n_name n0) -> NoDup (map n_name (r_names r)) ->
  names_step r (set_names l r) /\ names_keep r (set_names l r).
Proof.
  intros H0 Hin Hne Hn. split.
  - intros m Hm. cbn in Hm. apply Hin in Hm. destruct Hm as [->|Hm]; [auto|].
    right. exists m. auto using name_step_refl.
  - intros n m Hn1 Hm E. cbn in Hm. apply Hin in Hm. destruct Hm as [->|Hm].
    + destruct (Hne n Hn1 E).
    + assert (n = m) as -> by (apply (key_eq n_name (r_names r)); auto). apply name_step_refl.
Qed.

Lemma put_name_step r s n n' r2 : get_name r s = Some n -> n_name n' = s ->
  r_names r2 = r_names r -> name_step n n' ->
  Forall2 name_step (r_names r) (r_names (put_name n' r2)).
Proof.
  intros En Hs E2 Hst. unfold put_name. cbn [set_names r_names]. rewrite E2, Hs.
  apply find_upd_same with (x := n); auto using name_step_refl.
Qed.

Ltac same_flow r :=
  unfold assert in *;
  repeat match goal with
    | E : context [match ?x with _ => _ end] |- _ => destruct x; try discriminate E
    end;
  match goal with E : Ok _ = Ok _ |- _ => inversion E; subst end;
  apply same_names; reflexivity.

Lemma step_names r e r' rep : ninv r -> once r -> step r e = Ok (r', rep) ->
  match e with EWaitAccepted i => forall s, ~ waits r s (i_npid i) | _ => True end ->
  names_step r r' /\ names_keep r r'.
Proof.
  intros I O E W. destruct e; cbn [step] in E;
    lazymatch type of E with
    | create_name _ _ _ = _ => idtac
    | destroy_name _ _ = _ => idtac
    | _ => apply forall2_names; [exact I|]
    end.
  - unfold create_flow in E. same_flow r.
  - unfold destroy_flow in E. same_flow r.
  - unfold prepare_alloc in E. same_flow r.
  - unfold wait_allocated in E. break. destruct (get_flow _ _) as [f|]; [|discriminate E]. break.
    unfold wait_look in E. destruct (fstate_eqb (f_st f) FAllocPending).
    + inversion E; subst. apply same_names. reflexivity.
    + destruct (f_st f); try discriminate E; eapply (an_end_step wait_end); eauto; constructor.
  - apply (wake_step wait_end _ _ _ _ _ _ _ end_alloc O E).
  - unfold respond_alloc in E. same_flow r.
  - unfold prepare_accept in E. same_flow r.
  - unfold wait_accepted in E. break. destruct (get_flow _ _) as [f|]; [|discriminate E]. break.
    destruct (add_active_proc _ _) as [r1|] eqn:Ea; [|discriminate E].
    destruct (add_active_step _ _ _ W Ea) as (F & Efl).
    unfold wait_look in E.
    match goal with X : fstate_eqb (f_st f) FAcceptPending = true |- _ => rewrite X in E end.
    inversion E; subst. exact F.
  - apply (wake_step accept_end _ _ _ _ _ _ _ end_accept O E).
  - unfold wait_accepting in E. same_flow r.
  - unfold respond_accept in E. same_flow r.
  - unfold dealloc_flow in E. same_flow r.
  - unfold dealloc_flow_resp in E. same_flow r.
  - unfold create_name in E. destruct (get_name r s) as [n|] eqn:Eg.
    + inversion E; subst. apply forall2_names; [exact I|]. apply same_names. reflexivity.
    + inversion E; subst. apply list_ins_step with (n0 := mk_rname s pol [] [] []); auto.
      * intros m. apply in_list_ins.
      * apply (find_no_key n_name s (is_name s) (is_name_iff s) _ Eg).
      * apply I.
  - unfold destroy_name in E. destruct (get_name r s) as [n|] eqn:Eg.
    2:{ inversion E; subst. apply forall2_names; [exact I|]. apply same_names. reflexivity. }
    destruct (del_name_from_procs _ _); [|discriminate E].
    destruct (del_name_from_progs _ _); [|discriminate E].
    destruct (name_destroy n); [|discriminate E]. inversion E; subst.
    assert (Hin : forall m, In m (del_first (is_name s) (r_names r)) -> In m (r_names r))
      by (intros m; apply in_del_first).
    split.
    + intros m Hm. right. exists m. split; [apply Hin; exact Hm|apply name_step_refl].
    + intros m m' Hm Hm' Em. cbn in Hm'. apply Hin in Hm'.
      assert (m = m') as -> by (apply (key_eq n_name (r_names r)); [apply I|auto..]).
      apply name_step_refl.
  - unfold create_proc in E. destruct (get_proc r pid); [inversion E; subst; apply same_names; reflexivity|].
    cbv zeta in E. destruct (get_prog r prog) as [g|].
    + destruct (update_names pid (g_names g) [] (r_names r)) as [[ns names']|] eqn:U; [|discriminate E].
      inversion E; subst. destruct (update_names_ok _ _ _ _ _ _ (ni_names r I) U) as (_ & F & _).
      cbn. clear - F. induction F as [|a b t t' X _ IH]; constructor; [|exact IH].
      rewrite X. destruct (has_str _ _); repeat split; constructor.
    + inversion E; subst. apply same_names. reflexivity.
  - destruct (destroy_proc_spec _ _ _ _ E I) as (_ & [(_ & ->)|(names' & -> & F)]);
      [apply same_names; reflexivity|].
    cbn. pose proof (ni_nprocs r I) as HN. pose proof (ni_active r I) as HA. clear - F HN HA.
    induction F as [|a b t t' X _ IH]; constructor.
    + destruct (name_del_proc_inv _ _ _ (HN a (or_introl eq_refl)) X) as (X1 & X2 & _ & _ & _ & X6 & X7).
      split; [exact X1|]. split; [exact X2|].
      destruct (in_dec N.eq_dec pid (n_procs a)) as [D|D].
      * rewrite (X6 D). constructor.
      * rewrite (X7 D). constructor.
    + apply IH; intros m Hm; [apply HN|apply HA]; right; exact Hm.
  - unfold bind_proc in E. break.
    destruct (get_name r s) as [n|] eqn:En; [|inversion E; subst; apply same_names; reflexivity].
    destruct (get_proc r pid) as [p|] eqn:Ep; [|inversion E; subst; apply same_names; reflexivity].
    destruct (has_pid pid (n_procs n)) eqn:Eh; [inversion E; subst; apply same_names; reflexivity|].
    destruct (name_add_proc n pid) as [n1|] eqn:Ea; [|discriminate E].
    unfold name_add_proc in Ea. break. cbv zeta in E.
    destruct (find_key n_name s (is_name s) (is_name_iff s) _ _ En) as (G1 & G2).
    destruct (get_accept_flow r pid).
    + destruct (name_add_active n1 pid) as [n2|] eqn:E2; [|discriminate E]. inversion E; subst r' rep.
      unfold name_add_active in E2. break. subst n1 n2.
      apply put_name_step with s n; auto. split; [reflexivity|]. split; [reflexivity|]. cbn.
      apply act_add. intros X. apply (ni_active r I n G1) in X. apply has_pid_iff in X. congruence.
    + inversion E; subst r' rep. subst n1. apply put_name_step with s n; auto.
      repeat split. constructor.
  - unfold unbind_proc in E. break.
    destruct (get_name r s) as [n|] eqn:En; [|inversion E; subst; apply same_names; reflexivity].
    destruct (get_proc r pid) as [p|] eqn:Ep; [|inversion E; subst; apply same_names; reflexivity].
    destruct (has_pid pid (n_procs n) && has_str s (p_names p)) eqn:Eh;
      [|inversion E; subst; apply same_names; reflexivity].
    apply andb_true_iff in Eh. destruct Eh as (Eh1 & _). apply has_pid_iff in Eh1.
    destruct (find_key n_name s (is_name s) (is_name_iff s) _ _ En) as (G1 & G2).
    destruct (name_del_proc n pid) as [n1|] eqn:Ed; [|discriminate E].
    destruct (str_del s (p_names p)) as [ns|]; [|discriminate E]. inversion E; subst r' rep.
    destruct (name_del_proc_inv _ _ _ (ni_nprocs r I n G1) Ed) as (X1 & X2 & _ & _ & _ & X6 & _).
    apply put_name_step with s n; auto; [congruence|].
    split; [exact X1|]. split; [exact X2|]. rewrite (X6 Eh1). constructor.
  - unfold create_prog in E. destruct (get_prog r s); inversion E; subst; apply same_names; reflexivity.
  - unfold destroy_prog in E. destruct (get_prog r s) as [g|];
      [|inversion E; subst; apply same_names; reflexivity].
    destruct (map_names _ _) as [l|] eqn:Em; [|discriminate E]. inversion E; subst.
    apply map_names_ok in Em. cbn. clear - Em. induction Em as [|a b t t' X _ IH]; constructor; [|exact IH].
    unfold name_del_prog in X. destruct (has_str _ _); [|injection X as <-; apply name_step_refl].
    break. subst b. repeat split. constructor.
  - unfold bind_prog in E.
    destruct (get_name r s) as [n|] eqn:En; [|inversion E; subst; apply same_names; reflexivity].
    destruct (get_prog r (path_strip exec)) as [g|]; [|inversion E; subst; apply same_names; reflexivity].
    destruct (has_str exec (n_progs n)); [inversion E; subst; apply same_names; reflexivity|].
    destruct (has_str s (g_names g)); [inversion E; subst; apply same_names; reflexivity|].
    destruct (find_key n_name s (is_name s) (is_name_iff s) _ _ En) as (G1 & G2).
    destruct auto.
    + unfold name_add_prog in E. destruct (assert _ _) as [n1|] eqn:Ea; [|discriminate E].
      break. subst n1. inversion E; subst r' rep. apply put_name_step with s n; auto. repeat split. constructor.
    + inversion E; subst r' rep. apply put_name_step with s n; auto. apply name_step_refl.
  - unfold unbind_prog in E.
    destruct (get_name r s) as [n|] eqn:En; [|inversion E; subst; apply same_names; reflexivity].
    destruct (get_prog r prog) as [g|]; [|inversion E; subst; apply same_names; reflexivity].
    destruct (has_str s (g_names g)); [|inversion E; subst; apply same_names; reflexivity].
    destruct (find_key n_name s (is_name s) (is_name_iff s) _ _ En) as (G1 & G2).
    destruct (name_del_prog n prog) as [n1|] eqn:Ed; [|discriminate E].
    destruct (str_del s (g_names g)) as [ns|]; [|discriminate E]. inversion E; subst r' rep.
    assert (X : name_step n n1).
    { unfold name_del_prog in Ed. destruct (has_str _ _); [|injection Ed as <-; apply name_step_refl].
      break. subst n1. repeat split. constructor. }
    apply put_name_step with s n; auto. destruct X as (X & _). congruence.
Qed.

Lemma step_once r r' : names_step r r' -> once r -> once r'.
Proof.
  intros St O n' Hn. destruct (St n' Hn) as [->|(n & H1 & _ & _ & H2)]; [constructor|].
  eapply act_step_nodup; eauto.
Qed.

Lemma run_once es : forall r r', ninv r -> once r -> one_accept r es -> run r es = Ok r' ->
  ninv r' /\ once r'.
Proof.
  induction es as [|e t IH]; intros r r' I O W H; cbn [run] in H.
  - injection H as <-. auto.
  - cbn [one_accept] in W. destruct W as (W1 & W2).
    destruct (step r e) as [[r1 rep]|] eqn:E; [|discriminate H].
    apply (IH r1); auto; [eapply step_ninv; eauto|].
    eapply step_once; [|exact O]. eapply step_names; eauto.
Qed.

Lemma run_app2 es1 es2 r :
  run r (es1 ++ es2) = match run r es1 with Ok r1 => run r1 es2 | Abort => Abort end.
Proof.
  revert r. induction es1 as [|e t IH]; intros r; cbn [run app]; [reflexivity|].
  destruct (step r e) as [[r' rep]|]; [apply IH|reflexivity].
Qed.

Lemma one_accept_app es1 es2 r r1 : one_accept r (es1 ++ es2) -> run r es1 = Ok r1 ->
  one_accept r es1 /\ one_accept r1 es2.
Proof.
  revert r. induction es1 as [|e t IH]; intros r W H; cbn [run app one_accept] in *.
  - injection H as <-. auto.
  - destruct W as (W1 & W2). destruct (step r e) as [[r' rep]|]; [|discriminate H].
    destruct (IH r' W2 H) as (X & Y). auto.
Qed.

(** ** The order of the list of waiting processes *)

(** [p] does not stand before [q] (round robin), [q] not behind [p] (spill). *)
Definition ahead (q p : N) (l : list N) : Prop := exists a b, l = a ++ q :: b /\ ~ In p a.
Definition behind (p q : N) (l : list N) : Prop := exists a b, l = a ++ p :: b /\ ~ In q b.

Lemma act_ahead q p l l' : act_step LbRR l l' -> In q l' -> ahead q p l -> ahead q p l'.
Proof.
  intros [|x Hx|x] Hq (a & b & -> & Ha).
  - exists a, b. auto.
  - exists a, (b ++ [x]). rewrite <- app_assoc. auto.
  - unfold del_all in *. rewrite filter_app in *. apply filter_In in Hq || idtac.
    assert (Exq : x <> q).
    { intros ->. apply in_app_iff in Hq. rewrite !filter_In in Hq.
      destruct Hq as [(_ & Hq)|(_ & Hq)]; lia. }
    exists (filter (fun y => negb (x =? y)%N) a), (filter (fun y => negb (x =? y)%N) b).
    cbn [filter]. replace (negb (x =? q)%N) with true by lia. split; [reflexivity|].
    rewrite filter_In. tauto.
Qed.

Lemma act_behind p q l l' : act_step LbSpill l l' -> In p l' -> behind p q l -> behind p q l'.
Proof.
  intros [|x Hx|x] Hq (a & b & -> & Ha).
  - exists a, b. auto.
  - exists (x :: a), b. auto.
  - unfold del_all in *. rewrite filter_app in *.
    assert (Exq : x <> p).
    { intros ->. apply in_app_iff in Hq. rewrite !filter_In in Hq.
      destruct Hq as [(_ & Hq)|(_ & Hq)]; lia. }
    exists (filter (fun y => negb (x =? y)%N) a), (filter (fun y => negb (x =? y)%N) b).
    cbn [filter]. replace (negb (x =? p)%N) with true by lia. split; [reflexivity|].
    rewrite filter_In. tauto.
Qed.

Lemma waits_through_cons r e es s q r1 rep : step r e = Ok (r1, rep) ->
  waits_through r (e :: es) s q -> waits r s q /\ waits_through r1 es s q.
Proof.
  intros E W. split.
  - exact (W [] (e :: es) r eq_refl eq_refl).
  - intros es1 es2 r2 -> H. apply (W (e :: es1) es2 r2 eq_refl). cbn [run]. rewrite E. exact H.
Qed.

Lemma order_kept (pol : lb) (rel : list N -> Prop) (w : N) (s : string) :
  (forall l l', act_step pol l l' -> In w l' -> rel l -> rel l') ->
  forall es r r' n n', ninv r -> once r -> one_accept r es -> run r es = Ok r' ->
  waits_through r es s w -> In n (r_names r) -> n_name n = s ->
  In n' (r_names r') -> n_name n' = s -> n_lb n' = pol -> rel (n_active n) -> rel (n_active n').
Proof.
  intros Hrel. induction es as [|e t IH]; intros r r' n n' I O W H Wt Hn En Hn' En' Ep R.
  - cbn in H. injection H as <-.
    assert (n = n') as <- by (apply (key_eq n_name (r_names r)); [apply I|auto|auto|congruence]). exact R.
  - cbn [run] in H. cbn [one_accept] in W. destruct W as (W1 & W2).
    destruct (step r e) as [[r1 rep]|] eqn:E; [|discriminate H].
    destruct (waits_through_cons _ _ _ _ _ _ _ E Wt) as (_ & Wt1).
    destruct (step_names r e r1 rep I O E W1) as (S1 & S2).
    pose proof (step_ninv _ _ _ _ E I) as I1. pose proof (step_once _ _ S1 O) as O1.
    destruct (Wt1 [] t r1 eq_refl eq_refl) as (m & M1 & M2 & M3).
    assert (St : name_step n m) by (apply S2; auto; congruence).
    destruct St as (St1 & St2 & St3).
    assert (Elb : n_lb m = pol).
    { clear IH. assert (G : forall t r1 m, ninv r1 -> once r1 -> one_accept r1 t -> run r1 t = Ok r' ->
        waits_through r1 t s w -> In m (r_names r1) -> n_name m = s -> n_lb m = pol).
      { clear - Hn' En' Ep. induction t as [|e t IH]; intros r m I O W H Wt M1 M2.
        - cbn in H. injection H as <-.
          assert (m = n') as -> by (apply (key_eq n_name (r_names r)); [apply I|auto|auto|congruence]).
          exact Ep.
        - cbn [run] in H. cbn [one_accept] in W. destruct W as (W1 & W2).
          destruct (step r e) as [[r1 rep]|] eqn:E; [|discriminate H].
          destruct (waits_through_cons _ _ _ _ _ _ _ E Wt) as (_ & Wt1).
          destruct (step_names r e r1 rep I O E W1) as (S1 & S2).
          destruct (Wt1 [] t r1 eq_refl eq_refl) as (m1 & K1 & K2 & K3).
          destruct (S2 m m1 M1 K1) as (_ & <- & _); [congruence|].
          apply (IH r1 m1); auto; [eapply step_ninv; eauto|eapply step_once; eauto]. }
      apply (G t r1 m); auto. }
    apply (IH r1 r' m n'); auto. apply (Hrel (n_active n)); auto. rewrite <- Elb, St2. exact St3.
Qed.

(** ** C37 *)

(** Round robin: the process that is chosen has waited longest.  If any
    process has been waiting all through the last part of the history, then
    so has the chosen one. *)
Theorem reg_accept_rr_partial : forall pre suf rk r n s p q,
  run reg_init pre = Ok rk -> run rk suf = Ok r -> one_accept reg_init (pre ++ suf) ->
  In n (r_names r) -> n_name n = s -> n_lb n = LbRR -> name_get_active n = Some p ->
  waits_through rk suf s q -> waits_through rk suf s p.
Proof.
  intros pre suf rk r n s p q H1 H2 W Hn En El Hp Wq es1 es2 r1 -> Hr1.
  destruct (one_accept_app _ _ _ _ W H1) as (Wa & Wb).
  destruct (run_once pre reg_init rk ninv_init (fun _ X => match X with end) Wa H1) as (Ik & Ok_).
  destruct (one_accept_app _ _ _ _ Wb Hr1) as (Wc & Wd).
  destruct (run_once es1 rk r1 Ik Ok_ Wc Hr1) as (I1 & O1).
  assert (H3 : run r1 es2 = Ok r) by (rewrite run_app2, Hr1 in H2; exact H2).
  assert (Wq1 : waits_through r1 es2 s q).
  { intros a b x -> Hx. apply (Wq (es1 ++ a) b x); [apply app_assoc|].
    rewrite run_app2, Hr1. exact Hx. }
  destruct (Wq1 [] es2 r1 eq_refl eq_refl) as (m & M1 & M2 & M3).
  destruct (in_dec N.eq_dec p (n_active m)) as [D|D]; [exists m; auto|]. exfalso.
  assert (Hqp : q <> p) by (intros ->; auto).
  assert (R : ahead q p (n_active m)).
  { apply in_split in M3. destruct M3 as (a & b & Eab). exists a, b. split; [exact Eab|].
    intros X. apply D. rewrite Eab. apply in_app_iff. auto. }
  pose proof (order_kept LbRR (ahead q p) q s (fun l l' => act_ahead q p l l') es2 r1 r m n
                I1 O1 Wd H3 Wq1 M1 M2 Hn En El R) as (a & b & Eab & Ha).
  unfold name_get_active in Hp. rewrite Eab in Hp. destruct a as [|x a]; cbn in Hp.
  - injection Hp as ->. apply Hqp. reflexivity.
  - injection Hp as ->. apply Ha. left. reflexivity.
Qed.
Print Assumptions reg_accept_rr_partial.

(** Spill: the process that is chosen is the one that came last.  If it has
    been waiting all through the last part of the history, then so has every
    process that waits at the end. *)
Theorem reg_accept_spill_partial : forall pre suf rk r n s p q,
  run reg_init pre = Ok rk -> run rk suf = Ok r -> one_accept reg_init (pre ++ suf) ->
  In n (r_names r) -> n_name n = s -> n_lb n = LbSpill -> name_get_active n = Some p ->
  waits r s q -> waits_through rk suf s p -> waits_through rk suf s q.
Proof.
  intros pre suf rk r n s p q H1 H2 W Hn En El Hp Hq Wp es1 es2 r1 -> Hr1.
  destruct (one_accept_app _ _ _ _ W H1) as (Wa & Wb).
  destruct (run_once pre reg_init rk ninv_init (fun _ X => match X with end) Wa H1) as (Ik & Ok_).
  destruct (one_accept_app _ _ _ _ Wb Hr1) as (Wc & Wd).
  destruct (run_once es1 rk r1 Ik Ok_ Wc Hr1) as (I1 & O1).
  assert (H3 : run r1 es2 = Ok r) by (rewrite run_app2, Hr1 in H2; exact H2).
  destruct (run_once es2 r1 r I1 O1 Wd H3) as (I2 & O2).
  assert (Wp1 : waits_through r1 es2 s p).
  { intros a b x -> Hx. apply (Wp (es1 ++ a) b x); [apply app_assoc|].
    rewrite run_app2, Hr1. exact Hx. }
  destruct (Wp1 [] es2 r1 eq_refl eq_refl) as (m & M1 & M2 & M3).
  destruct (in_dec N.eq_dec q (n_active m)) as [D|D]; [exists m; auto|]. exfalso.
  assert (Hqp : q <> p) by (intros ->; auto).
  assert (R : behind p q (n_active m)).
  { apply in_split in M3. destruct M3 as (a & b & Eab). exists a, b. split; [exact Eab|].
    intros X. apply D. rewrite Eab. apply in_app_iff. cbn. auto. }
  pose proof (order_kept LbSpill (behind p q) p s (fun l l' => act_behind p q l l') es2 r1 r m n
                I1 O1 Wd H3 Wp1 M1 M2 Hn En El R) as (a & b & Eab & Ha).
  destruct Hq as (n0 & N1 & N2 & N3).
  assert (n0 = n) as -> by (apply (key_eq n_name (r_names r)); [apply I2|auto|auto|congruence]).
  pose proof (O2 n Hn) as Nd. unfold name_get_active in Hp. rewrite Eab in Hp, N3, Nd.
  destruct a as [|x a]; cbn in Hp.
  - cbn in N3. destruct N3 as [N3|N3]; [congruence|auto].
  - injection Hp as ->. cbn [app] in Nd. inversion Nd; subst. apply H4. apply in_app_iff. cbn. auto.
Qed.
Print Assumptions reg_accept_spill_partial.

(** A flow request for a name is given to a flow that the chosen process is
    waiting to accept, and that process is bound to the name. *)
Theorem reg_request_routed : forall es r h x to r' z,
  run reg_init es = Ok r -> step r (EWaitAccepting h x to) = Ok (r', RInt z) -> 0 <= z ->
  exists n p f, In n (r_names r) /\ h (n_name n) = x /\ name_get_active n = Some p /\
    name_has r (n_name n) p /\ In f (r_flows r) /\ f_id f = z /\ f_npid f = p /\
    f_st f = FAcceptPending.
Proof.
  intros es r h x to r' z H E Hz. pose proof (run_ninv es reg_init r ninv_init H) as I.
  cbn [step] in E. unfold wait_accepting, pending_flow_id in E.
  destruct (find _ (r_names r)) as [n|] eqn:Fn.
  2:{ cbn in E. inversion E; subst. cbn in Hz. lia. }
  apply find_some in Fn. destruct Fn as (Hn & Hx). apply N.eqb_eq in Hx.
  destruct (name_get_active n) as [p|] eqn:Ep.
  2:{ destruct (- EAGAIN =? - EAGAIN); [|inversion E; subst; cbn in Hz; lia].
      destruct to; inversion E; subst; cbn in Hz; lia. }
  destruct (get_accept_flow r p) as [f|] eqn:Ef; [|discriminate E].
  destruct (f_id f =? - EAGAIN) eqn:Ei.
  { destruct to; inversion E; subst; cbn in Hz; lia. }
  inversion E; subst. unfold get_accept_flow in Ef. apply find_some in Ef. destruct Ef as (F1 & F2).
  unfold accepting in F2. apply andb_true_iff in F2. destruct F2 as (F2 & F3).
  exists n, p, f. split; [exact Hn|]. split; [reflexivity|]. split; [exact Ep|]. split.
  - exists n. split; [exact Hn|]. split; [reflexivity|]. apply (ni_active r' I n Hn).
    unfold name_get_active in Ep. destruct (n_active n); [discriminate Ep|]. injection Ep as ->.
    left. reflexivity.
  - split; [exact F1|]. split; [reflexivity|]. split; [lia|].
    destruct (f_st f); try discriminate F2; reflexivity.
Qed.
Print Assumptions reg_request_routed.

(** ** C37 and C73: refutations *)

Definition acc_info (id : Z) (pid : N) : finfo := mk_finfo id pid 0 0 0 FAcceptPending.

(** Process [pid] calls accept; its flow gets [id]. *)
Definition accept_evs (id : Z) (pid : N) : list ev :=
  [ECreateFlow (mk_finfo 0 pid 0 0 0 FInit) false;
   EPrepareAccept (mk_finfo id pid 0 0 0 FInit) None;
   EWaitAccepted (acc_info id pid)].

Definition served : list ev :=
  [ECreateName "srv" LbRR; ECreateProc 10 "a"; ECreateProc 11 "b";
   EBindProc "srv" 10; EBindProc "srv" 11].

(** Two threads of process 10 and one thread of process 11 accept; the second
    thread of process 10, which came last, gives up.  The first thread of
    process 10 was there first and is still waiting, but process 11 is
    chosen. *)
Theorem reg_accept_rr_refuted :
  exists pre suf rk r n, run reg_init pre = Ok rk /\ run rk suf = Ok r /\
    r_names r = [n] /\ n_lb n = LbRR /\ name_get_active n = Some 11%N /\
    waits rk "srv" 10 /\ ~ waits rk "srv" 11 /\
    (exists f, get_flow rk 1 = Some f /\ f_npid f = 10%N /\ f_st f = FAcceptPending) /\
    (exists f, get_flow r 1 = Some f /\ f_tag f = 0%N /\ f_npid f = 10%N /\ f_st f = FAcceptPending).
Proof.
  set (pre := served ++ accept_evs 1 10).
  set (suf := accept_evs 2 11 ++ accept_evs 3 10 ++ [EWakeAccepted 3 2 true]).
  remember (run reg_init pre) as o eqn:Eo.
  assert (A : match o with
              | Ok rk =>
                  match r_names rk with
                  | [n] => n_name n = "srv" /\ n_active n = [10%N]
                  | _ => False
                  end /\
                  match get_flow rk 1 with
                  | Some f => f_npid f = 10%N /\ f_st f = FAcceptPending
                  | None => False
                  end /\
                  match run rk suf with
                  | Ok r =>
                      match r_names r with
                      | [n] => n_lb n = LbRR /\ name_get_active n = Some 11%N
                      | _ => False
                      end /\
                      match get_flow r 1 with
                      | Some f => f_tag f = 0%N /\ f_npid f = 10%N /\ f_st f = FAcceptPending
                      | None => False
                      end
                  | Abort => False
                  end
              | Abort => False
              end) by (rewrite Eo; vm_compute; auto 10).
  destruct o as [rk|]; [|destruct A]. destruct A as (A1 & A2 & A3).
  destruct (r_names rk) as [|nk [|]] eqn:Enk; try (destruct A1; fail). destruct A1 as (A0 & A1).
  destruct (get_flow rk 1) as [fk|] eqn:Efk; [|destruct A2].
  destruct (run rk suf) as [r|] eqn:Er; [|destruct A3]. destruct A3 as (A3 & A4).
  destruct (r_names r) as [|n [|]] eqn:En; try (destruct A3; fail). destruct A3 as (A5 & A3).
  destruct (get_flow r 1) as [f|] eqn:Ef; [|destruct A4].
  exists pre, suf, rk, r, n. split; [symmetry; exact Eo|]. split; [exact Er|].
  split; [exact En|]. split; [exact A5|]. split; [exact A3|].
  split; [|split; [|split]].
  - exists nk. rewrite Enk, A1. split; [left; reflexivity|]. split; [exact A0|left; reflexivity].
  - intros (m & M1 & _ & M3). rewrite Enk in M1. destruct M1 as [<-|[]]. rewrite A1 in M3.
    destruct M3 as [M3|[]]. discriminate M3.
  - exists fk. auto.
  - exists f. tauto.
Qed.
Print Assumptions reg_accept_rr_refuted.

(** C73 is false of the code: two flow requests for a name with one accepting
    process are both given the same flow; answering the second one ends the
    daemon. *)
Theorem reg_two_requests_refuted :
  exists es r r1, run reg_init es = Ok r /\
    step r (EWaitAccepting (fun _ => 0%N) 0 false) = Ok (r, RInt 1) /\
    step r (ERespondAccept (mk_finfo 1 0 20 5 0 FAllocated) None RbOk) = Ok r1 /\
    step (fst r1) (ERespondAccept (mk_finfo 1 0 21 5 0 FAllocated) None RbOk) = Abort.
Proof.
  set (es := served ++ accept_evs 1 10).
  remember (run reg_init es) as o eqn:Eo.
  assert (A : match o with
              | Ok r =>
                  step r (EWaitAccepting (fun _ => 0%N) 0 false) = Ok (r, RInt 1) /\
                  match step r (ERespondAccept (mk_finfo 1 0 20 5 0 FAllocated) None RbOk) with
                  | Ok r1 => step (fst r1) (ERespondAccept (mk_finfo 1 0 21 5 0 FAllocated) None RbOk) = Abort
                  | Abort => False
                  end
              | Abort => False
              end) by (rewrite Eo; vm_compute; auto).
  destruct o as [r|]; [|destruct A]. destruct A as (A1 & A2).
  destruct (step r (ERespondAccept (mk_finfo 1 0 20 5 0 FAllocated) None RbOk)) as [r1|] eqn:E1; [|destruct A2].
  exists es, r, r1. split; [symmetry; exact Eo|]. auto.
Qed.
Print Assumptions reg_two_requests_refuted.

(** A flow request that arrives after the accept was answered and before the
    accepting thread runs again ends the daemon as well. *)
Theorem reg_request_before_wake_refuted :
  exists es r r1, run reg_init es = Ok r /\
    step r (ERespondAccept (mk_finfo 1 0 20 5 0 FAllocated) None RbOk) = Ok r1 /\
    step (fst r1) (EWaitAccepting (fun _ => 0%N) 0 false) = Abort.
Proof.
  set (es := served ++ accept_evs 1 10).
  remember (run reg_init es) as o eqn:Eo.
  assert (A : match o with
              | Ok r =>
                  match step r (ERespondAccept (mk_finfo 1 0 20 5 0 FAllocated) None RbOk) with
                  | Ok r1 => step (fst r1) (EWaitAccepting (fun _ => 0%N) 0 false) = Abort
                  | Abort => False
                  end
              | Abort => False
              end) by (rewrite Eo; vm_compute; auto).
  destruct o as [r|]; [|destruct A].
  destruct (step r (ERespondAccept (mk_finfo 1 0 20 5 0 FAllocated) None RbOk)) as [r1|] eqn:E1; [|destruct A].
  exists es, r, r1. split; [symmetry; exact Eo|]. auto.
Qed.
Print Assumptions reg_request_before_wake_refuted.

(** A flow request cannot abort the daemon as long as every waiting process
    still has a flow to accept. *)
Theorem reg_request_safe_partial : forall es r h x to, run reg_init es = Ok r ->
  (forall s p, waits r s p ->
     exists f, In f (r_flows r) /\ f_npid f = p /\ f_st f = FAcceptPending) ->
  exists rep, step r (EWaitAccepting h x to) = Ok (r, rep).
Proof.
  intros es r h x to H W. cbn [step]. unfold wait_accepting, pending_flow_id.
  destruct (find _ (r_names r)) as [n|] eqn:Fn; [|cbn; eauto].
  apply find_some in Fn. destruct Fn as (Hn & _).
  destruct (name_get_active n) as [p|] eqn:Ep.
  - assert (Hw : waits r (n_name n) p).
    { exists n. split; [exact Hn|]. split; [reflexivity|]. unfold name_get_active in Ep.
      destruct (n_active n); [discriminate Ep|]. injection Ep as ->. left. reflexivity. }
    destruct (W _ _ Hw) as (f & F1 & F2 & F3). unfold get_accept_flow.
    destruct (find (accepting p) (r_flows r)) as [g|] eqn:Fg.
    + destruct (_ =? _); [destruct to|]; eauto.
    + exfalso. pose proof (find_none _ _ Fg f F1) as X. unfold accepting in X.
      rewrite F3, F2, N.eqb_refl in X. discriminate X.
  - destruct (_ =? _); [destruct to|]; eauto.
Qed.
Print Assumptions reg_request_safe_partial.

(** Non-vacuity: three processes accept one after the other under both
    policies; the first one leaves. *)
Definition three (pol : lb) : list ev :=
  [ECreateName "srv" pol; ECreateProc 10 "a"; ECreateProc 11 "b"; ECreateProc 12 "c";
   EBindProc "srv" 10; EBindProc "srv" 11; EBindProc "srv" 12] ++
  accept_evs 1 10 ++ accept_evs 2 11 ++ accept_evs 3 12 ++ [EDestroyProc 10].

Example reg_accept_example :
  (match run reg_init (three LbRR) with
   | Ok r => map n_active (r_names r) = [[11%N; 12%N]] /\
             step r (EWaitAccepting (fun _ => 0%N) 0 false) = Ok (r, RInt 2)
   | Abort => False
   end) /\
  (match run reg_init (three LbSpill) with
   | Ok r => map n_active (r_names r) = [[12%N; 11%N]] /\
             step r (EWaitAccepting (fun _ => 0%N) 0 false) = Ok (r, RInt 3)
   | Abort => False
   end).
Proof. split; vm_compute; auto. Qed.

Example reg_one_accept_example : one_accept reg_init (served ++ accept_evs 1 10).
Proof.
  unfold served, accept_evs. cbn -[waits String.ltb].
  repeat split. intros s (n & N1 & N2 & N3). destruct N1 as [<-|[]]. destruct N3.
Qed.
