(** Proofs about the registry: names, processes and programs. *)

From Coq Require Import List NArith ZArith Bool String Lia Permutation.
From Coq Require Import ZifyBool ZifyNat ZifyN.
From Verif Require Import BitmapModel RegModel RegSpec RegProofs.
Import ListNotations.
Open Scope Z_scope.

(** ** Lists with keys *)

Section Keys.
Context {A K : Type}.
Variable key : A -> K.
Variable k : K.
Variable p : A -> bool.
Hypothesis Hp : forall a, p a = true <-> key a = k.

Lemma p_false a : p a = false <-> key a <> k.
Proof.
  destruct (p a) eqn:E; split; intros H; try congruence.
  - apply Hp in E. congruence.
  - intros X. apply Hp in X. congruence.
Qed.

Lemma keys_put y l : key y = k -> map key (upd_first p (fun _ => y) l) = map key l.
Proof.
  intros Hy. induction l as [|x t IH]; cbn; [reflexivity|].
  destruct (p x) eqn:E; cbn.
  - apply Hp in E. congruence.
  - rewrite IH. reflexivity.
Qed.

Lemma in_put y l x : NoDup (map key l) -> find p l = Some x -> forall m,
  In m (upd_first p (fun _ => y) l) <-> m = y \/ (In m l /\ key m <> k).
Proof.
  induction l as [|z t IH]; cbn; intros Hn Ef m; [discriminate|].
  inversion Hn; subst. destruct (p z) eqn:E.
  - apply Hp in E. cbn. split.
    + intros [<-|H]; [auto|]. right. split; [auto|]. intros X. apply H1. rewrite E, <- X.
      apply in_map. exact H.
    + intros [->|([->|H] & X)]; [auto|congruence|auto].
  - apply p_false in E. cbn. rewrite (IH H2 Ef m). split.
    + intros [<-|[->|(H & X)]]; auto.
    + intros [->|([->|H] & X)]; auto.
Qed.

Lemma in_del l : NoDup (map key l) -> forall m,
  In m (del_first p l) <-> In m l /\ key m <> k.
Proof.
  induction l as [|z t IH]; cbn; intros Hn m; [tauto|].
  inversion Hn; subst. destruct (p z) eqn:E.
  - apply Hp in E. split.
    + intros H. split; [auto|]. intros X. apply H1. rewrite E, <- X. apply in_map. exact H.
    + intros ([->|H] & X); [congruence|auto].
  - apply p_false in E. cbn. rewrite (IH H2 m). split.
    + intros [<-|(H & X)]; auto.
    + intros ([->|H] & X); auto.
Qed.

Lemma keys_del l : NoDup (map key l) -> NoDup (map key (del_first p l)).
Proof.
  induction l as [|z t IH]; cbn; intros Hn; [constructor|].
  inversion Hn; subst. destruct (p z); [assumption|]. cbn. constructor; [|auto].
  intros H. apply H1. apply in_map_iff in H. destruct H as (y & <- & H).
  apply in_map. eapply in_del_first. exact H.
Qed.

Lemma find_key l x : find p l = Some x -> In x l /\ key x = k.
Proof. intros E. apply find_some in E. destruct E as (E1 & E2). apply Hp in E2. auto. Qed.

Lemma find_no_key l : find p l = None -> forall x, In x l -> key x <> k.
Proof. intros E x Hx. apply p_false. exact (find_none _ _ E x Hx). Qed.

Lemma find_has_key l x : In x l -> key x = k -> exists y, find p l = Some y.
Proof.
  intros Hx E. destruct (find p l) as [y|] eqn:F; [eauto|].
  exfalso. apply (find_no_key l F x Hx E).
Qed.
End Keys.

Lemma key_eq {A K} (key : A -> K) l x y : NoDup (map key l) -> In x l -> In y l ->
  key x = key y -> x = y.
Proof.
  induction l as [|z t IH]; cbn [map]; intros Hn Hx Hy E; [destruct Hx|].
  inversion Hn; subst. destruct Hx as [->|Hx]; destruct Hy as [->|Hy]; auto.
  - exfalso. apply H1. rewrite E. apply in_map. exact Hy.
  - exfalso. apply H1. rewrite <- E. apply in_map. exact Hx.
Qed.

Lemma is_name_iff s n : is_name s n = true <-> n_name n = s.
Proof. unfold is_name. apply String.eqb_eq. Qed.
Lemma is_proc_iff pid p : is_proc pid p = true <-> p_pid p = pid.
Proof. unfold is_proc. apply N.eqb_eq. Qed.
Lemma is_prog_iff s g : is_prog s g = true <-> g_name g = s.
Proof. unfold is_prog. apply String.eqb_eq. Qed.

Lemma has_pid_iff pid l : has_pid pid l = true <-> In pid l.
Proof.
  unfold has_pid. rewrite existsb_exists. split.
  - intros (x & H & E). apply N.eqb_eq in E. congruence.
  - intros H. exists pid. split; [exact H|apply N.eqb_refl].
Qed.
Lemma has_pid_not pid l : has_pid pid l = false <-> ~ In pid l.
Proof. rewrite <- has_pid_iff. destruct (has_pid pid l); split; congruence. Qed.
Lemma has_str_iff s l : has_str s l = true <-> In s l.
Proof.
  unfold has_str. rewrite existsb_exists. split.
  - intros (x & H & E). apply String.eqb_eq in E. congruence.
  - intros H. exists s. split; [exact H|apply String.eqb_refl].
Qed.
Lemma has_str_not s l : has_str s l = false <-> ~ In s l.
Proof. rewrite <- has_str_iff. destruct (has_str s l); split; congruence. Qed.

Lemma in_del_pid pid l : NoDup l -> forall x, In x (del_first (N.eqb pid) l) <-> In x l /\ x <> pid.
Proof.
  intros Hn x.
  apply (in_del (fun a : N => a) pid (N.eqb pid)).
  - intros a. rewrite N.eqb_eq. split; congruence.
  - rewrite map_id. exact Hn.
Qed.
Lemma nodup_del_pid pid l : NoDup l -> NoDup (del_first (N.eqb pid) l).
Proof.
  intros Hn. pose proof (keys_del (fun a : N => a) (N.eqb pid) l) as H.
  rewrite !map_id in H. auto.
Qed.
Lemma in_del_str s l : NoDup l -> forall x, In x (del_first (String.eqb s) l) <-> In x l /\ x <> s.
Proof.
  intros Hn x.
  apply (in_del (fun a : string => a) s (String.eqb s)).
  - intros a. rewrite String.eqb_eq. split; congruence.
  - rewrite map_id. exact Hn.
Qed.
Lemma nodup_del_str s l : NoDup l -> NoDup (del_first (String.eqb s) l).
Proof.
  intros Hn. pose proof (keys_del (fun a : string => a) (String.eqb s) l) as H.
  rewrite !map_id in H. auto.
Qed.

(** reg_proc_del_name and reg_prog_del_name on lists without duplicates. *)
Lemma str_del_ok s l : NoDup l -> exists l', str_del s l = Ok l' /\ NoDup l' /\
  (forall x, In x l' <-> In x l /\ x <> s).
Proof.
  intros Hn. unfold str_del. destruct (has_str s l) eqn:E.
  - exists (del_first (String.eqb s) l). unfold assert.
    replace (has_str s (del_first (String.eqb s) l)) with false.
    + split; [reflexivity|]. split; [apply nodup_del_str; auto|apply in_del_str; auto].
    + symmetry. apply has_str_not. rewrite in_del_str by auto. tauto.
  - exists l. split; [reflexivity|]. split; [auto|]. apply has_str_not in E.
    intros x. split; [|tauto]. intros Hx. split; [auto|]. intros ->. auto.
Qed.

Lemma str_del_none s l : ~ In s l -> str_del s l = Ok l.
Proof. intros H. unfold str_del. apply has_str_not in H. rewrite H. reflexivity. Qed.

(** reg_name_del_proc. *)
Lemma name_del_proc_ok n pid : NoDup (n_procs n) -> (0 < pid)%N ->
  exists n', name_del_proc n pid = Ok n' /\ n_name n' = n_name n /\ n_lb n' = n_lb n /\
    n_progs n' = n_progs n /\ NoDup (n_procs n') /\
    (forall x, In x (n_procs n') <-> In x (n_procs n) /\ x <> pid) /\
    (In pid (n_procs n) -> n_active n' = del_all pid (n_active n)) /\
    (~ In pid (n_procs n) -> n' = n).
Proof.
  intros Hn Hpos. unfold name_del_proc, assert at 1. replace (0 <? pid)%N with true by lia.
  destruct (has_pid pid (n_procs n)) eqn:E.
  - unfold assert. replace (has_pid pid (del_first (N.eqb pid) (n_procs n))) with false.
    2:{ symmetry. apply has_pid_not. rewrite in_del_pid by auto. tauto. }
    cbn [negb]. apply has_pid_iff in E. eexists. split; [reflexivity|]. cbn.
    split; [reflexivity|]. split; [reflexivity|]. split; [reflexivity|].
    split; [apply nodup_del_pid; auto|].
    split; [apply in_del_pid; auto|]. split; [reflexivity|]. tauto.
  - exists n. apply has_pid_not in E. split; [reflexivity|]. repeat split; auto; try tauto.
    intros ->. auto.
Qed.

Lemma in_del_all pid l x : In x (del_all pid l) <-> In x l /\ x <> pid.
Proof. unfold del_all. rewrite filter_In. split; intros (H1 & H2); split; auto; lia. Qed.

(** ** The invariant *)

Record ninv (r : reg) : Prop := mk_ninv {
  ni_names : NoDup (map n_name (r_names r));
  ni_procs : NoDup (map p_pid (r_procs r));
  ni_progs : NoDup (map g_name (r_progs r));
  ni_nprocs : forall n, In n (r_names r) -> NoDup (n_procs n);
  ni_nprogs : forall n, In n (r_names r) -> NoDup (n_progs n);
  ni_pnames : forall p, In p (r_procs r) -> NoDup (p_names p);
  ni_gnames : forall g, In g (r_progs r) -> NoDup (g_names g);
  ni_bind : forall pid s, proc_has r pid s <-> name_has r s pid;
  ni_active : forall n, In n (r_names r) -> incl (n_active n) (n_procs n);
  ni_pos : forall n pid, In n (r_names r) -> In pid (n_procs n) -> (0 < pid)%N
}.

Lemma ninv_init : ninv reg_init.
Proof.
  split; try (constructor; fail); cbn; try (intros; tauto).
  intros pid s. split; intros (x & [] & _).
Qed.

(** Changes of the lists of waiting processes only. *)
Definition same_but_active (n n' : rname) : Prop :=
  n_name n' = n_name n /\ n_lb n' = n_lb n /\ n_progs n' = n_progs n /\ n_procs n' = n_procs n.

Lemma forall2_in_l {A} (R : A -> A -> Prop) l l' x : Forall2 R l l' -> In x l ->
  exists y, In y l' /\ R x y.
Proof.
  induction 1 as [|a b t t' Rab _ IH]; [intros []|]. intros [<-|H].
  - exists b. cbn. auto.
  - destruct (IH H) as (y & Hy & Ry). exists y. cbn. auto.
Qed.

Lemma ninv_active r r' : r_procs r' = r_procs r -> r_progs r' = r_progs r ->
  Forall2 (fun n n' => same_but_active n n' /\ incl (n_active n') (n_procs n')) (r_names r) (r_names r') ->
  ninv r -> ninv r'.
Proof.
  intros Ep Eg F [I1 I2 I3 I4 I5 I6 I7 I8 I9 I10].
  assert (Back : forall n', In n' (r_names r') -> exists n, In n (r_names r) /\
            same_but_active n n' /\ incl (n_active n') (n_procs n')).
  { intros n' Hn. destruct (forall2_in _ _ _ _ F Hn) as (n & Hn1 & X). eauto. }
  assert (Em : map n_name (r_names r') = map n_name (r_names r)).
  { clear - F. induction F as [|a b t t' ((E & _) & _) _ IH]; cbn; congruence. }
  split; rewrite ?Ep, ?Eg, ?Em; auto.
  - intros n' Hn. destruct (Back n' Hn) as (n & H1 & (_ & _ & _ & ->) & _). auto.
  - intros n' Hn. destruct (Back n' Hn) as (n & H1 & (_ & _ & -> & _) & _). auto.
  - intros pid s. unfold proc_has. rewrite Ep. rewrite (I8 pid s). unfold name_has. split.
    + intros (n & H1 & H2 & H3). destruct (forall2_in_l _ _ _ _ F H1) as (n' & H4 & (H5 & _ & _ & H6) & _).
      exists n'. rewrite H5, H6. auto.
    + intros (n' & H1 & H2 & H3). destruct (Back n' H1) as (n & H4 & (H5 & _ & _ & H6) & _).
      exists n. rewrite <- H5, <- H6. auto.
  - intros n' Hn. destruct (Back n' Hn) as (n & H1 & _ & H). auto.
  - intros n' pid Hn. destruct (Back n' Hn) as (n & H1 & (_ & _ & _ & ->) & _). eauto.
Qed.

Lemma ninv_same r r' : r_procs r' = r_procs r -> r_progs r' = r_progs r ->
  r_names r' = r_names r -> ninv r -> ninv r'.
Proof.
  intros Ep Eg En I. apply ninv_active with r; auto. rewrite En. pose proof (ni_active r I) as HA.
  clear - HA. induction (r_names r) as [|n t IH]; constructor.
  - split; [repeat split|]. apply HA. left. reflexivity.
  - apply IH. intros m Hm. apply HA. right. exact Hm.
Qed.

Lemma del_active_ninv pid r r' : del_active_proc pid r = Ok r' -> ninv r -> ninv r'.
Proof.
  intros E I. unfold del_active_proc in E. break. subst r'.
  apply ninv_active with r; try reflexivity; [|exact I].
  pose proof (ni_active r I) as HA. cbn [set_names r_names]. clear - HA.
  induction (r_names r) as [|n t IH]; cbn [map]; constructor.
  - split; [repeat split|]. cbn. intros x Hx. apply (HA n); [left; reflexivity|].
    eapply in_del_first. exact Hx.
  - apply IH. intros m Hm. apply HA. right. exact Hm.
Qed.

Lemma map_names_ok f l l' : map_names f l = Ok l' -> Forall2 (fun n n' => f n = Ok n') l l'.
Proof.
  revert l'. induction l as [|n t IH]; intros l' E; cbn in E.
  - injection E as <-. constructor.
  - destruct (f n) as [n'|] eqn:En; [|discriminate].
    destruct (map_names f t) as [t'|]; [|discriminate]. injection E as <-.
    constructor; auto.
Qed.

Lemma map_names_total f l : (forall n, In n l -> exists n', f n = Ok n') ->
  exists l', map_names f l = Ok l'.
Proof.
  induction l as [|n t IH]; intros H; cbn; [eauto|].
  destruct (H n (or_introl eq_refl)) as (n' & ->).
  destruct IH as (t' & ->); [intros m Hm; apply H; right; exact Hm|]. eauto.
Qed.

Lemma add_active_ok n pid n' : name_add_active n pid = Ok n' ->
  same_but_active n n' /\ In pid (n_procs n) /\
  (forall x, In x (n_active n') <-> x = pid \/ In x (n_active n)).
Proof.
  unfold name_add_active. intros E. break. subst n'. split; [repeat split|].
  split; [apply has_pid_iff; assumption|]. intros x. cbn.
  destruct (n_lb n); [rewrite in_app_iff|]; cbn; intuition congruence.
Qed.

Lemma add_active_ninv pid r r' : add_active_proc pid r = Ok r' -> ninv r -> ninv r'.
Proof.
  intros E I. unfold add_active_proc in E. break.
  destruct (map_names _ _) as [l|] eqn:Em; [|discriminate E]. injection E as <-.
  apply map_names_ok in Em.
  apply ninv_active with r; try reflexivity; [|exact I].
  pose proof (ni_active r I) as HA. cbn [set_names r_names]. clear - HA Em.
  induction Em as [|n n' t t' En _ IH]; constructor.
  - destruct (has_pid pid (n_procs n)).
    + apply add_active_ok in En. destruct En as (X & H1 & H2). split; [exact X|].
      destruct X as (_ & _ & _ & Xp). rewrite Xp.
      intros x Hx. apply H2 in Hx. destruct Hx as [->|Hx]; [exact H1|].
      apply (HA n); [left; reflexivity|exact Hx].
    + injection En as <-. split; [repeat split|]. apply HA. left. reflexivity.
  - apply IH. intros m Hm. apply HA. right. exact Hm.
Qed.

Lemma put_flow_ninv f r : ninv r -> ninv (put_flow f r).
Proof. apply ninv_same; reflexivity. Qed.

Lemma an_end_ninv fin r f z r' rep : an_end fin -> fin r f z = Ok (r', rep) -> ninv r -> ninv r'.
Proof.
  intros [|] E I.
  - unfold wait_end in E. inversion E; subst. apply put_flow_ninv. exact I.
  - unfold accept_end in E. destruct (del_active_proc _ r) as [r1|] eqn:Ed; [|discriminate E].
    unfold wait_end in E. inversion E; subst. apply put_flow_ninv.
    eapply del_active_ninv; eauto.
Qed.

Lemma wait_look_ninv fin r f pend r' rep : an_end fin -> wait_look r f pend fin = Ok (r', rep) ->
  ninv r -> ninv r'.
Proof.
  intros A E I. unfold wait_look in E. destruct (fstate_eqb _ _).
  - inversion E; subst. exact I.
  - destruct (f_st f); try discriminate E; eapply an_end_ninv; eauto.
Qed.

Lemma wake_ninv fin r id tag to pend r' rep : an_end fin ->
  wake r id tag to pend fin = Ok (r', rep) -> ninv r -> ninv r'.
Proof.
  intros A E I. unfold wake in E. destruct (get_flow r id) as [f|]; [|discriminate E]. break.
  destruct to; [|eapply wait_look_ninv; eauto].
  destruct (flow_update _ _ _) as [[[g i] z]|]; [|discriminate E].
  eapply an_end_ninv; [exact A|exact E|]. apply put_flow_ninv. exact I.
Qed.

(** *** Names *)

Lemma create_name_ninv s pol r r' rep : create_name r s pol = Ok (r', rep) -> ninv r -> ninv r'.
Proof.
  intros E I. unfold create_name in E. destruct (get_name r s) as [n|] eqn:Eg.
  { inversion E; subst. exact I. }
  inversion E; subst. clear E. destruct I as [I1 I2 I3 I4 I5 I6 I7 I8 I9 I10].
  set (n0 := mk_rname s pol [] [] []).
  match goal with |- ninv ?a => set (rr := a) end.
  assert (Hin : forall n, In n (r_names rr) <-> n = n0 \/ In n (r_names r))
    by (intros n; apply in_list_ins).
  split; auto.
  - apply (Permutation_NoDup (Permutation_sym (Permutation_map n_name (list_ins_perm _ n0 (r_names r))))).
    cbn [map]. constructor; [|exact I1]. intros H. apply in_map_iff in H.
    destruct H as (m & Hm & Hm2).
    exact (find_no_key n_name s (is_name s) (is_name_iff s) _ Eg m Hm2 Hm).
  - intros n Hn. apply Hin in Hn. destruct Hn as [->|Hn]; [constructor|auto].
  - intros n Hn. apply Hin in Hn. destruct Hn as [->|Hn]; [constructor|auto].
  - intros pid x. change (proc_has rr pid x) with (proc_has r pid x). rewrite (I8 pid x).
    unfold name_has. split; intros (n & H1 & H2 & H3).
    + exists n. split; [apply Hin; auto|auto].
    + apply Hin in H1. destruct H1 as [->|H1]; [destruct H3|]. exists n. auto.
  - intros n Hn. apply Hin in Hn. destruct Hn as [->|Hn]; [intros x []|auto].
  - intros n pid Hn Hpid. apply Hin in Hn. destruct Hn as [->|Hn]; [destruct Hpid|eauto].
Qed.

Lemma del_name_procs_none s l : (forall p, In p l -> ~ In s (p_names p)) ->
  del_name_from_procs s l = Ok l.
Proof.
  induction l as [|p t IH]; cbn; intros H; [reflexivity|].
  rewrite str_del_none by (apply H; auto). rewrite IH by auto. destruct p. reflexivity.
Qed.

Lemma del_name_progs_ok s l : (forall g, In g l -> NoDup (g_names g)) ->
  exists l', del_name_from_progs s l = Ok l' /\
  Forall2 (fun g g' => g_name g' = g_name g /\ g_path g' = g_path g /\ NoDup (g_names g') /\
                       forall x, In x (g_names g') <-> In x (g_names g) /\ x <> s) l l'.
Proof.
  induction l as [|g t IH]; cbn; intros H; [exists []; split; [reflexivity|constructor]|].
  destruct (str_del_ok s (g_names g) (H g (or_introl eq_refl))) as (ns & -> & H1 & H2).
  destruct IH as (t' & -> & F); [auto|]. eexists. split; [reflexivity|].
  constructor; [|exact F]. cbn. auto.
Qed.

Lemma destroy_name_ninv s r r' rep : destroy_name r s = Ok (r', rep) -> ninv r -> ninv r'.
Proof.
  intros E I. unfold destroy_name in E. destruct (get_name r s) as [n|] eqn:Eg.
  2:{ inversion E; subst. exact I. }
  pose proof I as [I1 I2 I3 I4 I5 I6 I7 I8 I9 I10].
  pose proof (find_key n_name s (is_name s) (is_name_iff s) _ _ Eg) as (G1 & G2).
  destruct (del_name_progs_ok s (r_progs r) I7) as (gs & Eg2 & F). rewrite Eg2 in E.
  assert (Hproc : forall m pid, In m (r_names r) -> n_name m = s -> In pid (n_procs m) -> n_procs n <> []).
  { intros m pid Hm En Hpid. assert (m = n) as -> by (apply (key_eq n_name (r_names r)); auto; congruence).
    intros X. rewrite X in Hpid. exact Hpid. }
  destruct (n_procs n) as [|pid0 rest] eqn:Enp.
  2:{ exfalso. destruct (del_name_from_procs s (r_procs r)); [|discriminate E].
      unfold name_destroy in E. rewrite Enp in E. destruct (n_progs n); discriminate E. }
  assert (Hno : forall p, In p (r_procs r) -> ~ In s (p_names p)).
  { intros p Hp Hs. assert (P : proc_has r (p_pid p) s) by (exists p; auto).
    apply I8 in P. destruct P as (m & M1 & M2 & M3). exact (Hproc m _ M1 M2 M3 eq_refl). }
  rewrite (del_name_procs_none s (r_procs r) Hno) in E.
  destruct (name_destroy n); [|discriminate E]. inversion E; subst r' rep. clear E.
  match goal with |- ninv ?a => set (rr := a) end.
  assert (Hin : forall m, In m (r_names rr) <-> In m (r_names r) /\ n_name m <> s)
    by (apply (in_del n_name s (is_name s) (is_name_iff s)); exact I1).
  split; auto.
  - apply (keys_del n_name); exact I1.
  - cbn [rr set_names set_rprocs set_rprogs r_progs].
    assert (Em : map g_name gs = map g_name (r_progs r)).
    { clear - F. induction F as [|a b t t' (X & _) _ IH]; cbn; congruence. }
    rewrite Em. exact I3.
  - intros m Hm. apply Hin in Hm. apply I4. tauto.
  - intros m Hm. apply Hin in Hm. apply I5. tauto.
  - intros g Hg. cbn in Hg. destruct (forall2_in _ _ _ _ F Hg) as (g0 & _ & _ & _ & X & _). exact X.
  - intros pid x. change (proc_has rr pid x) with (proc_has r pid x). rewrite (I8 pid x).
    unfold name_has. split; intros (m & M1 & M2 & M3).
    + exists m. split; [|auto]. apply Hin. split; [exact M1|]. intros X.
      exact (Hproc m pid M1 X M3 eq_refl).
    + apply Hin in M1. exists m. tauto.
  - intros m Hm. apply Hin in Hm. apply I9. tauto.
  - intros m pid Hm Hpid. apply Hin in Hm. apply (I10 m); tauto.
Qed.

(** *** Processes *)

Lemma update_names_ok pid gn l acc acc' l' : NoDup (map n_name l) ->
  update_names pid gn acc l = Ok (acc', l') ->
  (forall n, In n l -> ~ In pid (n_procs n)) /\
  Forall2 (fun n n' => n' = (if has_str (n_name n) gn then set_procs (pid :: n_procs n) n else n)) l l' /\
  (forall n, In n l -> In (n_name n) gn -> (0 < pid)%N) /\
  (forall s, In s acc' <-> In s acc \/ (In s gn /\ exists n, In n l /\ n_name n = s)) /\
  (NoDup acc -> NoDup acc').
Proof.
  revert acc acc' l'. induction l as [|n t IH]; intros acc acc' l' Hn E; cbn [update_names] in E.
  - inversion E; subst. split; [intros ? []|]. split; [constructor|]. split; [intros ? []|].
    split; [|auto]. intros s. split; [auto|]. intros [H|(_ & x & [] & _)]; exact H.
  - break. cbn [map] in Hn. inversion Hn as [|? ? Hn1 Hn2]; subst.
    assert (Hp : ~ In pid (n_procs n)).
    { apply has_pid_not. match goal with X : negb _ = true |- _ => apply negb_true_iff in X; exact X end. }
    destruct (has_str (n_name n) gn) eqn:Eh.
    + break. destruct (name_add_proc n pid) as [n'|] eqn:Ea; [|discriminate E].
      unfold name_add_proc in Ea. break. subst n'.
      destruct (update_names pid gn (n_name n :: acc) t) as [[a t']|] eqn:Eu; [|discriminate E].
      inversion E; subst. destruct (IH _ _ _ Hn2 Eu) as (J1 & J2 & J3 & J4 & J5).
      split; [intros m [<-|Hm]; auto|].
      split; [constructor; [rewrite Eh; reflexivity|exact J2]|].
      split; [intros m [<-|Hm] Hg; [lia|eauto]|].
      split.
      * intros s. rewrite (J4 s). cbn [In]. apply has_str_iff in Eh. split.
        -- intros [[<-|H]|(H & m & H1 & H2)]; [right; split; [exact Eh|]; exists n; auto|auto|].
           right. split; [exact H|]. exists m. auto.
        -- intros [H|(H & m & [<-|H1] & H2)]; [auto|auto|]. right. split; [exact H|]. exists m. auto.
      * intros Ha. apply J5. constructor; [|exact Ha].
        match goal with X : negb (has_str (n_name n) acc) = true |- _ =>
          apply negb_true_iff in X; apply has_str_not in X; exact X end.
    + destruct (update_names pid gn acc t) as [[a t']|] eqn:Eu; [|discriminate E].
      inversion E; subst. destruct (IH _ _ _ Hn2 Eu) as (J1 & J2 & J3 & J4 & J5).
      apply has_str_not in Eh.
      split; [intros m [<-|Hm]; auto|].
      split; [constructor; [apply has_str_not in Eh; rewrite Eh; reflexivity|exact J2]|].
      split; [intros m [<-|Hm] Hg; [tauto|eauto]|].
      split; [|exact J5].
      intros s. rewrite (J4 s). cbn [In]. split.
      * intros [H|(H & m & H1 & H2)]; [auto|]. right. split; [exact H|]. exists m. auto.
      * intros [H|(H & m & [<-|H1] & H2)]; [auto|subst; tauto|]. right. split; [exact H|]. exists m. auto.
Qed.

(** The new process and the changed names in general. *)
Lemma new_proc_ninv r pid prog ns names' gn : ninv r -> get_proc r pid = None ->
  Forall2 (fun n n' => n' = (if has_str (n_name n) gn then set_procs (pid :: n_procs n) n else n))
          (r_names r) names' ->
  (forall n, In n (r_names r) -> In (n_name n) gn -> (0 < pid)%N) ->
  (forall s, In s ns <-> In s gn /\ exists n, In n (r_names r) /\ n_name n = s) -> NoDup ns ->
  ninv (set_rprocs (list_ins (fun p => (pid <? p_pid p)%N) (mk_rproc pid prog ns) (r_procs r))
          (set_names names' r)).
Proof.
  intros [I1 I2 I3 I4 I5 I6 I7 I8 I9 I10] Eg F Hpos Hns Nns.
  set (p0 := mk_rproc pid prog ns).
  match goal with |- ninv ?a => set (rr := a) end.
  assert (Hin : forall p, In p (r_procs rr) <-> p = p0 \/ In p (r_procs r))
    by (intros n; apply in_list_ins).
  assert (Hnot : forall p, In p (r_procs r) -> p_pid p <> pid)
    by (apply (find_no_key p_pid pid (is_proc pid) (is_proc_iff pid) _ Eg)).
  assert (Hnp : forall n, In n (r_names r) -> ~ In pid (n_procs n)).
  { intros n Hn Hpid. assert (P : name_has r (n_name n) pid) by (exists n; auto).
    apply I8 in P. destruct P as (p & P1 & P2 & _). exact (Hnot p P1 P2). }
  assert (Back : forall n', In n' (r_names rr) -> exists n, In n (r_names r) /\
            n' = (if has_str (n_name n) gn then set_procs (pid :: n_procs n) n else n))
    by (intros n' Hn; destruct (forall2_in _ _ _ _ F Hn) as (n & X1 & X2); eauto).
  assert (Em : map n_name (r_names rr) = map n_name (r_names r)).
  { cbn. clear - F. induction F as [|a b t t' X _ IH]; cbn; [reflexivity|]. rewrite IH, X.
    destruct (has_str _ _); reflexivity. }
  split.
  - rewrite Em. exact I1.
  - apply (Permutation_NoDup (Permutation_sym (Permutation_map p_pid (list_ins_perm _ p0 (r_procs r))))).
    cbn [map]. constructor; [|exact I2]. intros H. apply in_map_iff in H.
    destruct H as (m & Hm & Hm2). exact (Hnot m Hm2 Hm).
  - exact I3.
  - intros n' Hn. destruct (Back n' Hn) as (n & H1 & ->). destruct (has_str _ _); [|auto].
    cbn. constructor; auto.
  - intros n' Hn. destruct (Back n' Hn) as (n & H1 & ->). destruct (has_str _ _); cbn; auto.
  - intros p Hp. apply Hin in Hp. destruct Hp as [->|Hp]; [exact Nns|auto].
  - exact I7.
  - intros q s. destruct (N.eq_dec q pid) as [->|Hq].
    + split.
      * intros (p & P1 & P2 & P3). apply Hin in P1. destruct P1 as [->|P1]; [|exfalso; exact (Hnot p P1 P2)].
        cbn in P3. apply Hns in P3. destruct P3 as (S1 & n & N1 & N2).
        destruct (forall2_in_l _ _ _ _ F N1) as (n' & N3 & N4). exists n'. split; [exact N3|].
        assert (X : has_str (n_name n) gn = true) by (apply has_str_iff; congruence).
        rewrite X in N4. subst n'. cbn. auto.
      * intros (n' & N1 & N2 & N3). destruct (Back n' N1) as (n & M1 & M2).
        destruct (has_str (n_name n) gn) eqn:X.
        -- exists p0. split; [apply Hin; auto|]. split; [reflexivity|]. cbn. apply Hns.
           subst n'. cbn in N2. apply has_str_iff in X. split; [congruence|]. exists n. auto.
        -- subst n'. exfalso. exact (Hnp n M1 N3).
    + transitivity (name_has r s q); [transitivity (proc_has r q s)|].
      * split; intros (p & P1 & P2 & P3).
        -- apply Hin in P1. destruct P1 as [->|P1]; [cbn in P2; congruence|]. exists p. auto.
        -- exists p. split; [apply Hin; auto|auto].
      * apply I8.
      * split.
        -- intros (n & N1 & N2 & N3). destruct (forall2_in_l _ _ _ _ F N1) as (n' & N4 & N5).
           exists n'. split; [exact N4|]. subst n'. destruct (has_str _ _); cbn; auto.
        -- intros (n' & N1 & N2 & N3). destruct (Back n' N1) as (n & M1 & M2). exists n.
           split; [exact M1|]. subst n'. destruct (has_str _ _); cbn in *; [|auto].
           destruct N3 as [N3|N3]; [congruence|auto].
  - intros n' Hn. destruct (Back n' Hn) as (n & H1 & ->). destruct (has_str _ _); cbn; [|auto].
    intros x Hx. right. exact (I9 n H1 x Hx).
  - intros n' q Hn Hq. destruct (Back n' Hn) as (n & H1 & H2).
    destruct (has_str (n_name n) gn) eqn:X; subst n'; [|eauto]. cbn in Hq.
    destruct Hq as [<-|Hq]; [|eauto]. apply (Hpos n H1). apply has_str_iff. exact X.
Qed.

Lemma create_proc_ninv pid prog r r' rep : create_proc r pid prog = Ok (r', rep) ->
  ninv r -> ninv r'.
Proof.
  intros E I. unfold create_proc in E. destruct (get_proc r pid) as [p|] eqn:Eg.
  { inversion E; subst. exact I. }
  cbv zeta in E. destruct (get_prog r prog) as [g|].
  - destruct (update_names pid (g_names g) [] (r_names r)) as [[ns names']|] eqn:U; [|discriminate E].
    inversion E; subst. destruct (update_names_ok _ _ _ _ _ _ (ni_names r I) U) as (J1 & J2 & J3 & J4 & J5).
    apply new_proc_ninv with (gn := g_names g); auto.
    + intros s. rewrite (J4 s). cbn. tauto.
    + apply J5. constructor.
  - inversion E; subst.
    change (ninv (set_rprocs (list_ins (fun p => (pid <? p_pid p)%N) (mk_rproc pid prog []) (r_procs r))
                   (set_names (r_names r) r))).
    apply new_proc_ninv with (gn := []); auto.
    + clear. induction (r_names r); constructor; auto.
    + intros n _ [].
    + intros s. cbn. tauto.
    + constructor.
Qed.

Lemma destroy_proc_spec pid r r' rep : destroy_proc r pid = Ok (r', rep) -> ninv r ->
  rep = RInt 0 /\
  ((get_proc r pid = None /\ r' = r) \/
   (exists names', r' = set_flows (map (cancel_flow pid) (r_flows r)) (set_names names'
              (set_rprocs (del_first (is_proc pid) (r_procs r)) r)) /\
    Forall2 (fun n n' => name_del_proc n pid = Ok n') (r_names r) names')).
Proof.
  intros E I. unfold destroy_proc in E. destruct (get_proc r pid) as [p|] eqn:Eg.
  - destruct (map_names _ _) as [names'|] eqn:Em; [|discriminate E].
    apply map_names_ok in Em. inversion E; subst. split; [reflexivity|]. right. exists names'. auto.
  - inversion E; subst. auto.
Qed.

Lemma name_del_proc_inv n pid n' : NoDup (n_procs n) -> name_del_proc n pid = Ok n' ->
  n_name n' = n_name n /\ n_lb n' = n_lb n /\
    n_progs n' = n_progs n /\ NoDup (n_procs n') /\
    (forall x, In x (n_procs n') <-> In x (n_procs n) /\ x <> pid) /\
    (In pid (n_procs n) -> n_active n' = del_all pid (n_active n)) /\
    (~ In pid (n_procs n) -> n' = n).
Proof.
  intros Hn E. assert (Hpos : (0 < pid)%N).
  { unfold name_del_proc, assert in E. destruct (0 <? pid)%N eqn:X; [lia|discriminate E]. }
  destruct (name_del_proc_ok n pid Hn Hpos) as (n'' & E2 & X). rewrite E in E2. injection E2 as ->. exact X.
Qed.

Lemma del_proc_active n pid n' : NoDup (n_procs n) -> incl (n_active n) (n_procs n) ->
  name_del_proc n pid = Ok n' -> incl (n_active n') (n_procs n').
Proof.
  intros Hn Hi E. destruct (name_del_proc_inv _ _ _ Hn E) as (X1 & X2 & X3 & X4 & X5 & X6 & X7).
  intros x Hx. apply X5. destruct (in_dec N.eq_dec pid (n_procs n)) as [D|D].
  - rewrite (X6 D) in Hx. apply in_del_all in Hx. split; [apply Hi|]; tauto.
  - rewrite (X7 D) in Hx. split; [auto|]. intros ->. apply D. auto.
Qed.

Lemma destroy_proc_ninv pid r r' rep : destroy_proc r pid = Ok (r', rep) -> ninv r -> ninv r'.
Proof.
  intros E I. destruct (destroy_proc_spec _ _ _ _ E I) as (_ & [(_ & ->)|(names' & -> & F)]); [exact I|].
  destruct I as [I1 I2 I3 I4 I5 I6 I7 I8 I9 I10].
  match goal with |- ninv ?a => set (rr := a) end.
  assert (Hin : forall p, In p (r_procs rr) <-> In p (r_procs r) /\ p_pid p <> pid)
    by (apply (in_del p_pid pid (is_proc pid) (is_proc_iff pid)); exact I2).
  assert (Back : forall n', In n' (r_names rr) -> exists n, In n (r_names r) /\ name_del_proc n pid = Ok n')
    by (intros n' Hn; destruct (forall2_in _ _ _ _ F Hn) as (n & X1 & X2); eauto).
  split.
  - cbn. assert (Em : map n_name names' = map n_name (r_names r)).
    { clear - F I4. induction F as [|a b t t' X _ IH]; cbn; [reflexivity|].
      rewrite IH by (intros; apply I4; right; auto).
      destruct (name_del_proc_inv _ _ _ (I4 a (or_introl eq_refl)) X) as (-> & _). reflexivity. }
    rewrite Em. exact I1.
  - apply (keys_del p_pid). exact I2.
  - exact I3.
  - intros n' Hn. destruct (Back n' Hn) as (n & H1 & H2).
    destruct (name_del_proc_inv _ _ _ (I4 n H1) H2) as (_ & _ & _ & X & _). exact X.
  - intros n' Hn. destruct (Back n' Hn) as (n & H1 & H2).
    destruct (name_del_proc_inv _ _ _ (I4 n H1) H2) as (_ & _ & -> & _). auto.
  - intros p Hp. apply Hin in Hp. apply I6. tauto.
  - exact I7.
  - intros q s. split.
    + intros (p & P1 & P2 & P3). apply Hin in P1. destruct P1 as (P0 & P1).
      assert (H : name_has r s q) by (apply I8; exists p; auto).
      destruct H as (n & N1 & N2 & N3). destruct (forall2_in_l _ _ _ _ F N1) as (n' & N4 & N5).
      destruct (name_del_proc_inv _ _ _ (I4 n N1) N5) as (X1 & _ & _ & _ & X5 & _).
      exists n'. split; [exact N4|]. split; [congruence|]. apply X5. split; [exact N3|congruence].
    + intros (n' & N1 & N2 & N3). destruct (Back n' N1) as (n & H1 & H2).
      destruct (name_del_proc_inv _ _ _ (I4 n H1) H2) as (X1 & _ & _ & _ & X5 & _).
      apply X5 in N3. destruct N3 as (N3 & N4).
      assert (H : proc_has r q s) by (apply I8; exists n; split; [exact H1|]; split; congruence).
      destruct H as (p & P1 & P2 & P3). exists p. split; [apply Hin; split; congruence|auto].
  - intros n' Hn. destruct (Back n' Hn) as (n & H1 & H2). eapply del_proc_active; eauto.
  - intros n' q Hn Hq. destruct (Back n' Hn) as (n & H1 & H2).
    destruct (name_del_proc_inv _ _ _ (I4 n H1) H2) as (X1 & _ & _ & _ & X5 & _).
    apply X5 in Hq. apply (I10 n); tauto.
Qed.

(** *** Binding *)

(** A name and a process are replaced by new versions. *)
Lemma put_both_ninv r s pid n p n' p' : ninv r ->
  get_name r s = Some n -> get_proc r pid = Some p ->
  n_name n' = s -> p_pid p' = pid -> n_progs n' = n_progs n ->
  NoDup (n_procs n') -> NoDup (p_names p') -> incl (n_active n') (n_procs n') ->
  (forall x, In x (n_procs n') -> (0 < x)%N) ->
  (forall q, q <> pid -> (In q (n_procs n') <-> In q (n_procs n))) ->
  (forall x, x <> s -> (In x (p_names p') <-> In x (p_names p))) ->
  (In pid (n_procs n') <-> In s (p_names p')) ->
  ninv (put_name n' (put_proc p' r)) /\
  (forall q x, (q <> pid \/ x <> s) ->
     (name_has (put_name n' (put_proc p' r)) x q <-> name_has r x q)) /\
  (name_has (put_name n' (put_proc p' r)) s pid <-> In pid (n_procs n')).
Proof.
  intros [I1 I2 I3 I4 I5 I6 I7 I8 I9 I10] En Ep Hn' Hp' Hg Nn Np Ha Hpos Hq Hx Hb.
  set (rr := put_name n' (put_proc p' r)).
  assert (Hin : forall m, In m (r_names rr) <-> m = n' \/ (In m (r_names r) /\ n_name m <> s)).
  { unfold rr, put_name. cbn [set_names r_names]. rewrite Hn'.
    apply (in_put n_name s (is_name s) (is_name_iff s) n' (r_names r) n I1 En). }
  assert (Pin : forall m, In m (r_procs rr) <-> m = p' \/ (In m (r_procs r) /\ p_pid m <> pid)).
  { unfold rr, put_name, put_proc. cbn [set_names set_rprocs r_procs]. rewrite Hp'.
    apply (in_put p_pid pid (is_proc pid) (is_proc_iff pid) p' (r_procs r) p I2 Ep). }
  pose proof (find_key n_name s (is_name s) (is_name_iff s) _ _ En) as (G1 & G2).
  pose proof (find_key p_pid pid (is_proc pid) (is_proc_iff pid) _ _ Ep) as (G3 & G4).
  assert (Hnn : forall m, In m (r_names r) -> n_name m = s -> m = n)
    by (intros m M1 M2; apply (key_eq n_name (r_names r)); auto; congruence).
  assert (Hpp : forall m, In m (r_procs r) -> p_pid m = pid -> m = p)
    by (intros m M1 M2; apply (key_eq p_pid (r_procs r)); auto; congruence).
  assert (NH : forall q x, (q <> pid \/ x <> s) -> (name_has rr x q <-> name_has r x q)).
  { intros q x D. split.
    - intros (m & M1 & M2 & M3). apply Hin in M1. destruct M1 as [->|(M1 & M4)]; [|exists m; auto].
      assert (q <> pid) by (destruct D; congruence).
      exists n. split; [exact G1|]. split; [congruence|]. apply Hq; auto.
    - intros (m & M1 & M2 & M3). destruct (string_dec x s) as [Es|Es].
      + assert (Emn : m = n) by (apply Hnn; congruence). rewrite Emn in M3.
        assert (q <> pid) by (destruct D; congruence).
        exists n'. split; [apply Hin; auto|]. split; [congruence|]. apply Hq; auto.
      + exists m. split; [apply Hin; right; split; congruence|auto]. }
  assert (PH : forall q x, (q <> pid \/ x <> s) -> (proc_has rr q x <-> proc_has r q x)).
  { intros q x D. split.
    - intros (m & M1 & M2 & M3). apply Pin in M1. destruct M1 as [->|(M1 & M4)]; [|exists m; auto].
      assert (x <> s) by (destruct D; congruence).
      exists p. split; [exact G3|]. split; [congruence|]. apply Hx; auto.
    - intros (m & M1 & M2 & M3). destruct (N.eq_dec q pid) as [Es|Es].
      + assert (Emn : m = p) by (apply Hpp; congruence). rewrite Emn in M3.
        assert (x <> s) by (destruct D; congruence).
        exists p'. split; [apply Pin; auto|]. split; [congruence|]. apply Hx; auto.
      + exists m. split; [apply Pin; right; split; congruence|auto]. }
  assert (NS : name_has rr s pid <-> In pid (n_procs n')).
  { split.
    - intros (m & M1 & M2 & M3). apply Hin in M1. destruct M1 as [->|(M1 & M4)]; [exact M3|congruence].
    - intros H. exists n'. split; [apply Hin; auto|auto]. }
  assert (PS : proc_has rr pid s <-> In s (p_names p')).
  { split.
    - intros (m & M1 & M2 & M3). apply Pin in M1. destruct M1 as [->|(M1 & M4)]; [exact M3|congruence].
    - intros H. exists p'. split; [apply Pin; auto|auto]. }
  split; [|split; [exact NH|exact NS]].
  split.
  - unfold rr, put_name. cbn [set_names r_names]. rewrite Hn'.
    rewrite (keys_put n_name s (is_name s) (is_name_iff s) n' _ Hn'). exact I1.
  - unfold rr, put_name, put_proc. cbn [set_names set_rprocs r_procs]. rewrite Hp'.
    rewrite (keys_put p_pid pid (is_proc pid) (is_proc_iff pid) p' _ Hp'). exact I2.
  - exact I3.
  - intros m M. apply Hin in M. destruct M as [->|(M & _)]; auto.
  - intros m M. apply Hin in M. destruct M as [->|(M & _)]; [rewrite Hg|]; auto.
  - intros m M. apply Pin in M. destruct M as [->|(M & _)]; auto.
  - exact I7.
  - intros q x. destruct (N.eq_dec q pid) as [->|D1].
    + destruct (string_dec x s) as [->|D2].
      * rewrite NS, PS. tauto.
      * rewrite (NH pid x), (PH pid x) by auto. apply I8.
    + rewrite (NH q x), (PH q x) by auto. apply I8.
  - intros m M. apply Hin in M. destruct M as [->|(M & _)]; auto.
  - intros m q M Q. apply Hin in M. destruct M as [->|(M & _)]; eauto.
Qed.

Lemma bind_proc_ninv s pid r r' rep : bind_proc r s pid = Ok (r', rep) -> ninv r ->
  ninv r' /\
  ((rep = RInt (-1) /\ r' = r) \/
   (rep = RInt 0 /\ ~ name_has r s pid /\ name_has r' s pid /\
    forall q x, (q <> pid \/ x <> s) -> (name_has r' x q <-> name_has r x q))).
Proof.
  intros E I. unfold bind_proc in E. break.
  destruct (get_name r s) as [n|] eqn:En; [|inversion E; subst; auto].
  destruct (get_proc r pid) as [p|] eqn:Ep; [|inversion E; subst; auto].
  destruct (has_pid pid (n_procs n)) eqn:Eh; [inversion E; subst; auto|].
  apply has_pid_not in Eh.
  destruct (name_add_proc n pid) as [n1|] eqn:Ea; [|discriminate E].
  unfold name_add_proc in Ea. break.
  pose proof (find_key n_name s (is_name s) (is_name_iff s) _ _ En) as (G1 & G2).
  pose proof (find_key p_pid pid (is_proc pid) (is_proc_iff pid) _ _ Ep) as (G3 & G4).
  cbv zeta in E.
  set (p1 := mk_rproc (p_pid p) (p_prog p) (s :: p_names p)) in *.
  assert (Hs : ~ In s (p_names p)).
  { match goal with X : negb (has_str s _) = true |- _ =>
      apply negb_true_iff in X; apply has_str_not in X; exact X end. }
  assert (Hnh : ~ name_has r s pid).
  { intros (m & M1 & M2 & M3). apply Eh.
    assert (m = n) as <- by (apply (key_eq n_name (r_names r)); [apply I|auto|auto|congruence]). exact M3. }
  assert (X : forall n2, same_but_active n1 n2 -> incl (n_active n2) (n_procs n2) ->
            ninv (put_name n2 (put_proc p1 r)) /\
            (forall q x, (q <> pid \/ x <> s) ->
               (name_has (put_name n2 (put_proc p1 r)) x q <-> name_has r x q)) /\
            (name_has (put_name n2 (put_proc p1 r)) s pid <-> In pid (n_procs n2))).
  { intros n2 (S1 & S2 & S3 & S4) S5. subst n1. cbn in S1, S2, S3, S4.
    apply (put_both_ninv r s pid n p); auto.
    - congruence.
    - rewrite S4. constructor; [exact Eh|]. apply I. exact G1.
    - cbn. constructor; [exact Hs|]. apply I. exact G3.
    - rewrite S4. intros x [<-|Hx]; [lia|]. apply (ni_pos r I n); auto.
    - rewrite S4. intros q Hq. cbn. split; [intros [?|?]; [congruence|auto]|auto].
    - intros x Hx. cbn. split; [intros [?|?]; [congruence|auto]|auto].
    - rewrite S4. cbn. tauto. }
  assert (Hin1 : incl (n_active n1) (n_procs n1)).
  { subst n1. cbn. intros x Hx. right. exact (ni_active r I n G1 x Hx). }
  assert (Hp1 : In pid (n_procs n1)) by (subst n1; left; reflexivity).
  destruct (get_accept_flow r pid).
  - destruct (name_add_active n1 pid) as [n2|] eqn:E2; [|discriminate E].
    inversion E; subst r' rep. apply add_active_ok in E2. destruct E2 as (A1 & A2 & A3).
    pose proof A1 as (_ & _ & _ & A4).
    destruct (X n2 A1) as (X1 & X2 & X3).
    { intros x Hx. apply A3 in Hx. rewrite A4. destruct Hx as [->|Hx]; auto. }
    split; [exact X1|]. right. split; [reflexivity|]. split; [exact Hnh|].
    split; [apply X3; rewrite A4; exact Hp1|exact X2].
  - inversion E; subst r' rep.
    destruct (X n1) as (X1 & X2 & X3); [repeat split|exact Hin1|].
    split; [exact X1|]. right. split; [reflexivity|]. split; [exact Hnh|].
    split; [apply X3; exact Hp1|exact X2].
Qed.

Lemma unbind_proc_ninv s pid r r' rep : unbind_proc r s pid = Ok (r', rep) -> ninv r ->
  ninv r' /\
  ((rep = RInt (-1) /\ r' = r /\ ~ name_has r s pid) \/
   (rep = RInt 0 /\ name_has r s pid /\ ~ name_has r' s pid /\
    forall q x, (q <> pid \/ x <> s) -> (name_has r' x q <-> name_has r x q))).
Proof.
  intros E I. unfold unbind_proc in E. break.
  destruct (get_name r s) as [n|] eqn:En.
  2:{ inversion E; subst; split; [exact I|]. left. split; [reflexivity|]. split; [reflexivity|].
      intros (m & M1 & M2 & _).
      exact (find_no_key n_name s (is_name s) (is_name_iff s) _ En m M1 M2). }
  destruct (get_proc r pid) as [p|] eqn:Ep.
  2:{ inversion E; subst; split; [exact I|]. left. split; [reflexivity|]. split; [reflexivity|].
      intros H. apply (ni_bind r' I) in H. destruct H as (m & M1 & M2 & _).
      exact (find_no_key p_pid pid (is_proc pid) (is_proc_iff pid) _ Ep m M1 M2). }
  pose proof (find_key n_name s (is_name s) (is_name_iff s) _ _ En) as (G1 & G2).
  pose proof (find_key p_pid pid (is_proc pid) (is_proc_iff pid) _ _ Ep) as (G3 & G4).
  assert (Hiff : name_has r s pid <-> In pid (n_procs n)).
  { split.
    - intros (m & M1 & M2 & M3).
      assert (m = n) as <- by (apply (key_eq n_name (r_names r)); [apply I|auto|auto|congruence]). exact M3.
    - intros H. exists n. auto. }
  assert (Piff : name_has r s pid <-> In s (p_names p)).
  { rewrite <- (ni_bind r I pid s). split.
    - intros (m & M1 & M2 & M3).
      assert (m = p) as <- by (apply (key_eq p_pid (r_procs r)); [apply I|auto|auto|congruence]). exact M3.
    - intros H. exists p. auto. }
  destruct (has_pid pid (n_procs n) && has_str s (p_names p)) eqn:Eh.
  - apply andb_true_iff in Eh. destruct Eh as (Eh1 & Eh2). apply has_pid_iff in Eh1.
    apply has_str_iff in Eh2.
    destruct (name_del_proc n pid) as [n'|] eqn:Ed; [|discriminate E].
    destruct (str_del_ok s (p_names p) (ni_pnames r I p G3)) as (ns & Es & Es1 & Es2).
    rewrite Es in E. inversion E; subst r' rep.
    destruct (name_del_proc_inv _ _ _ (ni_nprocs r I n G1) Ed) as (X1 & X2 & X3 & X4 & X5 & X6 & X7).
    destruct (put_both_ninv r s pid n p n' (mk_rproc (p_pid p) (p_prog p) ns)) as (Y1 & Y2 & Y3); auto.
    + congruence.
    + exact (del_proc_active n pid n' (ni_nprocs r I n G1) (ni_active r I n G1) Ed).
    + intros x Hx. apply X5 in Hx. apply (ni_pos r I n); tauto.
    + intros q Hq. rewrite (X5 q). tauto.
    + intros x Hx. cbn. rewrite (Es2 x). tauto.
    + cbn. rewrite (X5 pid), (Es2 s). tauto.
    + split; [exact Y1|]. right. split; [reflexivity|]. split; [apply Hiff; exact Eh1|].
      split; [|exact Y2]. intros H. apply Y3 in H. apply X5 in H. tauto.
  - inversion E; subst. split; [exact I|]. left. split; [reflexivity|]. split; [reflexivity|].
    intros H. apply andb_false_iff in Eh. destruct Eh as [Eh|Eh].
    + apply has_pid_not in Eh. tauto.
    + apply has_str_not in Eh. tauto.
Qed.

(** *** Programs *)

(** Changes of programs and of the programs to start only. *)
Lemma ninv_progs r names' progs' : ninv r ->
  Forall2 (fun n n' => n_name n' = n_name n /\ n_procs n' = n_procs n /\ n_active n' = n_active n /\
                       NoDup (n_progs n')) (r_names r) names' ->
  NoDup (map g_name progs') -> (forall g, In g progs' -> NoDup (g_names g)) ->
  ninv (set_names names' (set_rprogs progs' r)).
Proof.
  intros [I1 I2 I3 I4 I5 I6 I7 I8 I9 I10] F Ng Gn.
  assert (Back : forall n', In n' names' -> exists n, In n (r_names r) /\ n_name n' = n_name n /\
            n_procs n' = n_procs n /\ n_active n' = n_active n /\ NoDup (n_progs n'))
    by (intros n' Hn; destruct (forall2_in _ _ _ _ F Hn) as (n & X1 & X2); eauto).
  assert (Em : map n_name names' = map n_name (r_names r)).
  { clear - F. induction F as [|a b t t' (X & _) _ IH]; cbn; congruence. }
  split; cbn; auto.
  - rewrite Em. exact I1.
  - intros n' Hn. destruct (Back n' Hn) as (n & H1 & _ & -> & _). auto.
  - intros n' Hn. destruct (Back n' Hn) as (n & H1 & _ & _ & _ & X). auto.
  - intros pid s. transitivity (proc_has r pid s); [reflexivity|]. rewrite (I8 pid s). split.
    + intros (n & N1 & N2 & N3). destruct (forall2_in_l _ _ _ _ F N1) as (n' & N4 & N5 & N6 & _).
      exists n'. rewrite N5, N6. auto.
    + intros (n' & N1 & N2 & N3). destruct (Back n' N1) as (n & H1 & H2 & H3 & _).
      exists n. rewrite <- H2, <- H3. auto.
  - intros n' Hn. destruct (Back n' Hn) as (n & H1 & _ & -> & -> & _). auto.
  - intros n' pid Hn. destruct (Back n' Hn) as (n & H1 & _ & -> & _). eauto.
Qed.

Lemma name_del_prog_ok n g : NoDup (n_progs n) -> exists n', name_del_prog n g = Ok n' /\
  n_name n' = n_name n /\ n_procs n' = n_procs n /\ n_active n' = n_active n /\
  NoDup (n_progs n') /\ (forall x, In x (n_progs n') <-> In x (n_progs n) /\ x <> g).
Proof.
  intros Hn. unfold name_del_prog. destruct (has_str g (n_progs n)) eqn:E.
  - unfold assert. replace (has_str g (del_first (String.eqb g) (n_progs n))) with false.
    2:{ symmetry. apply has_str_not. rewrite in_del_str by auto. tauto. }
    cbn [negb]. eexists. split; [reflexivity|]. cbn. split; [reflexivity|]. split; [reflexivity|].
    split; [reflexivity|]. split; [apply nodup_del_str; auto|apply in_del_str; auto].
  - exists n. apply has_str_not in E. split; [reflexivity|]. split; [reflexivity|]. split; [reflexivity|].
    split; [reflexivity|]. split; [auto|]. intros x. split; [|tauto]. intros Hx. split; [auto|].
    intros ->. auto.
Qed.

Lemma create_prog_ninv s path r r' rep : create_prog r s path = Ok (r', rep) -> ninv r -> ninv r'.
Proof.
  intros E I. unfold create_prog in E. destruct (get_prog r s) as [g|] eqn:Eg.
  { inversion E; subst. exact I. }
  inversion E; subst. set (g0 := mk_rprog s path []).
  assert (P := list_ins_perm (fun g => String.ltb s (g_name g)) g0 (r_progs r)).
  replace (set_rprogs (list_ins (fun g => String.ltb s (g_name g)) g0 (r_progs r)) r)
    with (set_names (r_names r) (set_rprogs (list_ins (fun g => String.ltb s (g_name g)) g0 (r_progs r)) r))
    by (destruct r; reflexivity).
  apply ninv_progs; auto.
  - pose proof (ni_nprogs r I) as H. clear - H. induction (r_names r) as [|n t IH]; constructor.
    + repeat split. apply H. left. reflexivity.
    + apply IH. intros m Hm. apply H. right. exact Hm.
  - apply (Permutation_NoDup (Permutation_sym (Permutation_map g_name P))).
    cbn [map]. constructor; [|apply I]. intros H. apply in_map_iff in H.
    destruct H as (m & Hm & Hm2).
    exact (find_no_key g_name s (is_prog s) (is_prog_iff s) _ Eg m Hm2 Hm).
  - intros g Hg. apply (Permutation_in _ P) in Hg. destruct Hg as [<-|Hg]; [constructor|].
    apply (ni_gnames r I). exact Hg.
Qed.

Lemma destroy_prog_ninv s r r' rep : destroy_prog r s = Ok (r', rep) -> ninv r -> ninv r'.
Proof.
  intros E I. unfold destroy_prog in E. destruct (get_prog r s) as [g|] eqn:Eg.
  2:{ inversion E; subst. exact I. }
  destruct (map_names _ _) as [names'|] eqn:Em; [|discriminate E]. inversion E; subst.
  apply map_names_ok in Em. apply ninv_progs; auto.
  - pose proof (ni_nprogs r I) as H. clear - H Em. induction Em as [|n n' t t' X _ IH]; constructor.
    + destruct (name_del_prog_ok n (g_path g) (H n (or_introl eq_refl))) as (m & X1 & X2).
      rewrite X in X1. injection X1 as ->. tauto.
    + apply IH. intros m Hm. apply H. right. exact Hm.
  - apply (keys_del g_name). apply I.
  - intros x Hx. apply in_del_first in Hx. apply (ni_gnames r I). exact Hx.
Qed.

(** One name and one program are replaced. *)
Lemma put_prog_ninv r s gname n g n' g' : ninv r ->
  get_name r s = Some n -> get_prog r gname = Some g ->
  n_name n' = s -> n_procs n' = n_procs n -> n_active n' = n_active n -> NoDup (n_progs n') ->
  g_name g' = gname -> NoDup (g_names g') ->
  ninv (put_name n' (put_prog g' r)).
Proof.
  intros I En Eg H1 H2 H3 H4 H5 H6.
  unfold put_name, put_prog. cbn [set_rprogs r_names]. rewrite H1, H5.
  pose proof (find_key n_name s (is_name s) (is_name_iff s) _ _ En) as (G1 & G2).
  apply ninv_progs; auto.
  - pose proof (ni_nprogs r I) as H.
    assert (K : Forall2 (fun n n' => n_name n' = n_name n /\ n_procs n' = n_procs n /\
                 n_active n' = n_active n /\ (NoDup (n_progs n) -> NoDup (n_progs n')))
                (r_names r) (upd_first (is_name s) (fun _ => n') (r_names r))).
    { apply find_upd_same with (x := n); [exact En|intros; repeat split; auto|].
      repeat split; auto; congruence. }
    clear - K H. induction K as [|a b t t' (X1 & X2 & X3 & X4) _ IH]; constructor.
    + repeat split; auto. apply X4, H. left. reflexivity.
    + apply IH. intros m Hm. apply H. right. exact Hm.
  - rewrite (keys_put g_name gname (is_prog gname) (is_prog_iff gname) g' _ H5). apply I.
  - intros x Hx. apply in_upd_first in Hx. destruct Hx as [Hx|(y & Y1 & Y2 & ->)]; [|exact H6].
    apply (ni_gnames r I). exact Hx.
Qed.

Lemma bind_prog_ninv s exec auto r r' rep : bind_prog r s exec auto = Ok (r', rep) -> ninv r -> ninv r'.
Proof.
  intros E I. unfold bind_prog in E.
  destruct (get_name r s) as [n|] eqn:En; [|inversion E; subst; exact I].
  destruct (get_prog r (path_strip exec)) as [g|] eqn:Eg; [|inversion E; subst; exact I].
  destruct (has_str exec (n_progs n)) eqn:Eh; [inversion E; subst; exact I|].
  destruct (has_str s (g_names g)) eqn:Eh2; [inversion E; subst; exact I|].
  pose proof (find_key n_name s (is_name s) (is_name_iff s) _ _ En) as (G1 & G2).
  pose proof (find_key g_name _ (is_prog _) (is_prog_iff _) _ _ Eg) as (G3 & G4).
  apply has_str_not in Eh. apply has_str_not in Eh2.
  assert (Hg : NoDup (s :: g_names g)) by (constructor; [exact Eh2|apply (ni_gnames r I); exact G3]).
  destruct auto.
  - unfold name_add_prog in E. destruct (assert _ _) as [n1|] eqn:Ea; [|discriminate E].
    break. subst n1. inversion E; subst r' rep.
    apply put_prog_ninv with s (path_strip exec) n g; auto.
    cbn. constructor; [exact Eh|apply (ni_nprogs r I); exact G1].
  - inversion E; subst r' rep. apply put_prog_ninv with s (path_strip exec) n g; auto.
    apply (ni_nprogs r I); exact G1.
Qed.

Lemma unbind_prog_ninv s prog r r' rep : unbind_prog r s prog = Ok (r', rep) -> ninv r -> ninv r'.
Proof.
  intros E I. unfold unbind_prog in E.
  destruct (get_name r s) as [n|] eqn:En; [|inversion E; subst; exact I].
  destruct (get_prog r prog) as [g|] eqn:Eg; [|inversion E; subst; exact I].
  destruct (has_str s (g_names g)) eqn:Eh2; [|inversion E; subst; exact I].
  pose proof (find_key n_name s (is_name s) (is_name_iff s) _ _ En) as (G1 & G2).
  pose proof (find_key g_name _ (is_prog _) (is_prog_iff _) _ _ Eg) as (G3 & G4).
  destruct (name_del_prog_ok n prog (ni_nprogs r I n G1)) as (n' & E1 & X1 & X2 & X3 & X4 & _).
  rewrite E1 in E.
  destruct (str_del_ok s (g_names g) (ni_gnames r I g G3)) as (ns & Es & Es1 & _).
  rewrite Es in E. inversion E; subst r' rep.
  apply put_prog_ninv with s prog n g; auto. congruence.
Qed.

(** ** All operations *)

Ltac settle r :=
  unfold assert in *;
  repeat match goal with
    | E : context [match ?x with _ => _ end] |- _ => destruct x; try discriminate E
    end;
  match goal with E : Ok _ = Ok _ |- _ => inversion E; subst end;
  first [assumption | apply ninv_same with r; [reflexivity..|assumption]].

Lemma step_ninv r e r' rep : step r e = Ok (r', rep) -> ninv r -> ninv r'.
Proof.
  intros E I. destruct e; cbn [step] in E.
  - unfold create_flow in E. settle r.
  - unfold destroy_flow in E. settle r.
  - unfold prepare_alloc in E. settle r.
  - unfold wait_allocated in E. break. destruct (get_flow _ _); [|discriminate E]. break.
    eapply wait_look_ninv; eauto. constructor.
  - eapply wake_ninv; eauto. constructor.
  - unfold respond_alloc in E. settle r.
  - unfold prepare_accept in E. settle r.
  - unfold wait_accepted in E. break. destruct (get_flow _ _); [|discriminate E]. break.
    destruct (add_active_proc _ _) as [r1|] eqn:Ea; [|discriminate E].
    eapply wait_look_ninv; [constructor|exact E|]. eapply add_active_ninv; eauto.
  - eapply wake_ninv; eauto. constructor.
  - unfold wait_accepting in E. settle r.
  - unfold respond_accept in E. settle r.
  - unfold dealloc_flow in E. settle r.
  - unfold dealloc_flow_resp in E. settle r.
  - eapply create_name_ninv; eauto.
  - eapply destroy_name_ninv; eauto.
  - eapply create_proc_ninv; eauto.
  - eapply destroy_proc_ninv; eauto.
  - eapply bind_proc_ninv; eauto.
  - eapply unbind_proc_ninv; eauto.
  - eapply create_prog_ninv; eauto.
  - eapply destroy_prog_ninv; eauto.
  - eapply bind_prog_ninv; eauto.
  - eapply unbind_prog_ninv; eauto.
Qed.

Lemma run_ninv es r r' : ninv r -> run r es = Ok r' -> ninv r'.
Proof.
  revert r. induction es as [|e t IH]; intros r I H; cbn [run] in H.
  - injection H as <-. exact I.
  - destruct (step r e) as [[r1 rep]|] eqn:E; [|discriminate H].
    apply (IH r1); [|exact H]. eapply step_ninv; eauto.
Qed.
