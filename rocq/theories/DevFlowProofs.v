(* Invariant of the flow descriptors of a process (DevFlowModel). *)
From Coq Require Import List ZArith NArith Bool Lia Permutation Arith.
From Coq Require Import ZifyBool ZifyNat ZifyN.
From Verif Require Import BitmapModel.
From Verif Require BitmapSpec BitmapProofs.
From Verif Require Import DevFlowModel DevFlowSpec.
Import ListNotations.
Open Scope Z_scope.

Notation entry := (Z * (Z * bool))%type.

Definition olist (h : option nat) : list nat := match h with Some x => [x] | None => [] end.
Definition hs (s : slot) : list nat := olist (f_frct s) ++ olist (f_rx s) ++ olist (f_tx s) ++ olist (f_set s).
Definition all_hs (fl : Z -> slot) (l : list entry) : list nat := flat_map (fun p => hs (fl (fst p))) l.
Definition idof (p : entry) : Z := fst (snd p).

Definition with_open (a : ai) (l : list nat) : ai :=
  Ai (fds a) (flows a) (id_to_fd a) (n_frcti a) (next_h a) l (pend a).

Definition good_slot (fl : Z -> slot) (p : entry) : Prop :=
  exists rx tx st fr, fl (fst p) = Slot (idof p) (Some rx) (Some tx) (Some st) fr true /\
    (fr = None <-> snd (snd p) = false) /\ 0 <= idof p < 10240.

Record Core (a : ai) (l : list entry) (kn : list Z) (d : bool) : Prop := mkCore {
  i_fds : BitmapSpec.reach 4032 64 (fds a) (map fst l);
  i_live : forall p, In p l -> good_slot (flows a) p;
  i_free : forall fd, owner l fd = None ->
     flows a fd = flow_clear \/
     (d = true /\ f_frct (flows a fd) = None /\ f_linked (flows a fd) = false);
  i_nd : NoDup (open_h a);
  i_perm : Permutation (open_h a) (all_hs (flows a) l);
  i_lt : forall h, In h (open_h a) -> (h < next_h a)%nat;
  i_ids : NoDup (map idof l);
  i_map : forall id, In id kn ->
     id_to_fd a id = Some (match holder l id with Some fd => fd | None => -1 end);
  i_known : forall p, In p l -> In (idof p) kn;
  i_n : n_frcti a = ordered l
}.

Record Inv (a : ai) (v : view) : Prop := mkInv {
  i_core : Core a (live v) (known v) (dirty v);
  i_pend : pend a = pending v;
  i_pnd : NoDup (map snd (pending v));
  i_plive : forall t fd, In (t, fd) (pending v) -> owner (live v) fd <> None;
  i_kr : forall id, In id (known v) -> 0 <= id < 10240
}.

(* ---- lists ---- *)
Lemma owner_none l fd : owner l fd = None <-> ~ In fd (map fst l).
Proof.
  induction l as [|[x w] l IH]; cbn; [tauto|].
  destruct (Z.eqb_spec x fd) as [E|E]; [split; [discriminate|tauto]|].
  rewrite IH. tauto.
Qed.

Lemma owner_some l fd w : owner l fd = Some w -> In (fd, w) l.
Proof.
  induction l as [|[x w'] l IH]; cbn; [discriminate|].
  destruct (Z.eqb_spec x fd) as [E|E]; [intros [= ->]; subst; auto|auto].
Qed.

Lemma owner_in l p : NoDup (map fst l) -> In p l -> owner l (fst p) = Some (snd p).
Proof.
  induction l as [|[x w'] l IH]; cbn; [tauto|]. intros ND [H|H].
  - subst p. cbn. rewrite Z.eqb_refl. reflexivity.
  - inversion ND; subst. destruct (Z.eqb_spec x (fst p)) as [E|E]; [|auto].
    exfalso. apply H2. rewrite E. apply in_map. exact H.
Qed.

Lemma map_fst_drop l fd : map fst (drop l fd) = remove Z.eq_dec fd (map fst l).
Proof.
  unfold drop. induction l as [|[x w] l IH]; cbn; [reflexivity|].
  destruct (Z.eqb_spec x fd) as [E|E]; destruct (Z.eq_dec fd x); try lia; cbn; rewrite IH; reflexivity.
Qed.

Lemma drop_in l fd p : In p (drop l fd) <-> In p l /\ fst p <> fd.
Proof. unfold drop. rewrite filter_In. destruct (Z.eqb_spec (fst p) fd); cbn; intuition congruence. Qed.

Lemma drop_notin l fd : ~ In fd (map fst l) -> drop l fd = l.
Proof.
  unfold drop. induction l as [|[x w] l IH]; cbn; [reflexivity|]. intros H.
  destruct (Z.eqb_spec x fd); [tauto|]. cbn. rewrite IH; tauto.
Qed.

Lemma owner_drop l fd x : owner (drop l fd) x = if x =? fd then None else owner l x.
Proof.
  unfold drop. induction l as [|[y w] l IH]; cbn.
  - destruct (x =? fd); reflexivity.
  - destruct (Z.eqb_spec y fd) as [E|E]; cbn; rewrite IH;
      destruct (Z.eqb_spec x fd), (Z.eqb_spec y x); try reflexivity; lia.
Qed.

Lemma holder_none l id : holder l id = None <-> ~ In id (map idof l).
Proof.
  induction l as [|[x [i o]] l IH]; cbn; [tauto|]. unfold idof at 1; cbn.
  destruct (Z.eqb_spec i id) as [E|E]; [split; [discriminate|tauto]|].
  rewrite IH. tauto.
Qed.

Lemma holder_in l p : NoDup (map idof l) -> In p l -> holder l (idof p) = Some (fst p).
Proof.
  induction l as [|[x [i o]] l IH]; cbn; [tauto|]. intros ND [H|H].
  - subst p. unfold idof; cbn. rewrite Z.eqb_refl. reflexivity.
  - inversion ND; subst. destruct (Z.eqb_spec i (idof p)) as [E|E]; [|auto].
    exfalso. apply H2. unfold idof at 1; cbn. rewrite E. apply in_map. exact H.
Qed.

Lemma holder_drop l fd p x : NoDup (map idof l) -> NoDup (map fst l) -> In p l -> fst p = fd ->
  holder (drop l fd) x = if x =? idof p then None else holder l x.
Proof.
  intros ND NF Hp Hf. subst fd.
  induction l as [|[y [i o]] l IH]; [contradiction|].
  inversion ND as [|? ? Ni NDl]; inversion NF as [|? ? Ny NFl]; subst. cbn in Hp.
  cbn. destruct Hp as [Hp|Hp].
  - subst p. cbn [fst]. rewrite Z.eqb_refl. cbn. change (idof (y, (i, o))) with i in *.
    fold (drop l y). rewrite drop_notin by exact Ny.
    destruct (Z.eqb_spec x i) as [E|E].
    + subst x. apply holder_none. exact Ni.
    + destruct (Z.eqb_spec i x); [lia|reflexivity].
  - destruct (Z.eqb_spec y (fst p)) as [E|E].
    { exfalso. apply Ny. cbn. rewrite E. apply in_map. exact Hp. }
    cbn. fold (drop l (fst p)). rewrite (IH NDl NFl Hp).
    change (idof (y, (i, o))) with i in *.
    assert (i <> idof p) by (intros E'; apply Ni; rewrite E'; apply in_map; exact Hp).
    destruct (Z.eqb_spec i x), (Z.eqb_spec x (idof p)); try reflexivity; lia.
Qed.

Lemma split_owner l fd w : NoDup (map fst l) -> owner l fd = Some w ->
  exists l1 l2, l = l1 ++ (fd, w) :: l2 /\ drop l fd = l1 ++ l2.
Proof.
  intros ND H. apply owner_some in H. apply in_split in H. destruct H as (l1 & l2 & E).
  exists l1, l2. split; [exact E|]. subst l. rewrite map_app in ND. cbn in ND.
  apply NoDup_remove_2 in ND. rewrite in_app_iff in ND.
  unfold drop. rewrite filter_app. cbn. rewrite Z.eqb_refl. cbn.
  fold (drop l1 fd). fold (drop l2 fd). rewrite !drop_notin by tauto. reflexivity.
Qed.

Lemma all_hs_ext fl fl' l : (forall p, In p l -> fl (fst p) = fl' (fst p)) -> all_hs fl l = all_hs fl' l.
Proof.
  unfold all_hs. induction l as [|p l IH]; cbn; [reflexivity|]. intros H.
  rewrite H by auto. rewrite IH; auto.
Qed.

Lemma all_hs_app fl l1 l2 : all_hs fl (l1 ++ l2) = all_hs fl l1 ++ all_hs fl l2.
Proof. unfold all_hs. apply flat_map_app. Qed.

(* ---- handles ---- *)
Lemma is_open_in a h : is_open a h = true <-> In h (open_h a).
Proof.
  unfold is_open. rewrite existsb_exists. split.
  - intros (x & Hx & E). apply Nat.eqb_eq in E. subst; auto.
  - intros H. exists h. split; [auto|apply Nat.eqb_refl].
Qed.

Lemma filter_perm h l rest : NoDup l -> Permutation l (h :: rest) ->
  Permutation (filter (fun x => negb (Nat.eqb x h)) l) rest.
Proof.
  intros ND P.
  assert (NDr : NoDup (h :: rest)) by (eapply Permutation_NoDup; eauto).
  inversion NDr; subst.
  apply NoDup_Permutation; [apply NoDup_filter; exact ND|assumption|].
  intros x. rewrite filter_In. rewrite (Permutation_in' eq_refl P). cbn.
  destruct (Nat.eqb_spec x h) as [E|E]; cbn.
  - subst x. split; [intros [_ Q]; discriminate|tauto].
  - split; [intros [[Q|Q] _]; congruence|tauto].
Qed.

Lemma close_ok a h rest : NoDup (open_h a) -> Permutation (open_h a) (h :: rest) ->
  exists l, close_handle a h = Ok (with_open a l) /\ NoDup l /\ Permutation l rest.
Proof.
  intros ND P. exists (filter (fun x => negb (Nat.eqb x h)) (open_h a)).
  unfold close_handle.
  assert (is_open a h = true) as ->.
  { apply is_open_in. eapply Permutation_in; [apply Permutation_sym; exact P|left; reflexivity]. }
  split; [reflexivity|]. split; [apply NoDup_filter; exact ND|]. apply filter_perm; auto.
Qed.

(* ---- bitmap ---- *)
Lemma B1 : (1 <= 4032)%N. Proof. discriminate. Qed.

Lemma fds_nodup a l kn d : Core a l kn d -> NoDup (map fst l).
Proof. intros I. exact (proj1 (BitmapProofs.c01_capacity _ _ _ _ B1 (i_fds _ _ _ _ I))). Qed.

Lemma fds_range a l kn d p : Core a l kn d -> In p l -> 64 <= fst p < 4096.
Proof.
  intros I Hp. pose proof (i_fds _ _ _ _ I) as R.
  destruct (BitmapProofs.reach_inv _ _ _ _ B1 R) as (_ & _ & H & _).
  assert (In (fst p) (map fst l)) by (apply in_map; exact Hp).
  specialize (H _ H0). unfold BitmapSpec.in_pool in H. lia.
Qed.

Lemma ordered_split l1 p l2 : ordered (l1 ++ p :: l2) = ordered (l1 ++ l2) + (if snd (snd p) then 1 else 0).
Proof.
  induction l1 as [|[x [i o]] l1 IH]; cbn [app ordered].
  - destruct p as [x [i o]]. cbn. lia.
  - rewrite IH. lia.
Qed.

Lemma needed_hs fl l : (forall p, In p l -> good_slot fl p) -> length (all_hs fl l) = needed l.
Proof.
  induction l as [|[x [i o]] l IH]; intros H; [reflexivity|].
  change (all_hs fl ((x, (i, o)) :: l)) with (hs (fl x) ++ all_hs fl l). cbn [needed].
  rewrite app_length, IH by (intros p Hp; apply H; right; exact Hp). f_equal.
  destruct (H (x, (i, o)) (or_introl eq_refl)) as (rx & tx & st & fr & E & F & _).
  cbn [fst snd] in *. rewrite E. destruct fr, o; cbn; try reflexivity.
  - destruct F as [_ F]. discriminate F. reflexivity.
  - destruct F as [F _]. discriminate F. reflexivity.
Qed.

(* ---- __flow_fini ---- *)
Lemma fini_core a l kn d fd w : Core a l kn d -> owner l fd = Some w ->
  exists a', flow_fini a fd = Ok a' /\ Core a' (drop l fd) kn d /\ pend a' = pend a.
Proof.
  intros I Ow. pose proof (fds_nodup _ _ _ _ I) as NF.
  pose proof (owner_some _ _ _ Ow) as Hin.
  destruct (split_owner _ _ _ NF Ow) as (l1 & l2 & El & Ed).
  destruct (i_live _ _ _ _ I _ Hin) as (rx & tx & st & fr & Es & Fr & Hid).
  pose proof (fds_range _ _ _ _ _ I Hin) as Hr. cbn [fst] in *.
  destruct w as [id o]. unfold idof in *. cbn [fst snd] in *.
  destruct (BitmapProofs.c01_release _ _ _ _ fd B1 (i_fds _ _ _ _ I)) as (b & Eb).
  { apply (in_map fst) in Hin. exact Hin. }
  assert (Hbr : BitmapSpec.reach 4032 64 b (map fst (drop l fd))).
  { rewrite map_fst_drop. eapply BitmapSpec.reach_release; [exact (i_fds _ _ _ _ I)| |exact Eb].
    apply (in_map fst) in Hin. exact Hin. }
  set (rest := all_hs (flows a) (l1 ++ l2)).
  assert (Hother : forall p, In p (drop l fd) -> flows a (fst p) = (if fst p =? fd then flow_clear else flows a (fst p))).
  { intros p Hp. apply drop_in in Hp. destruct (Z.eqb_spec (fst p) fd); [tauto|reflexivity]. }
  assert (P : Permutation (open_h a) (olist fr ++ rx :: tx :: st :: rest)).
  { eapply Permutation_trans; [exact (i_perm _ _ _ _ I)|]. rewrite El, all_hs_app. cbn [all_hs flat_map].
    change (flat_map (fun p : entry => hs (flows a (fst p))) l2) with (all_hs (flows a) l2).
    cbn [fst]. rewrite Es. unfold hs. cbn [f_frct f_rx f_tx f_set].
    unfold rest. rewrite all_hs_app.
    change (olist (Some rx) ++ olist (Some tx) ++ olist (Some st)) with [rx; tx; st].
    eapply Permutation_trans; [apply Permutation_app_swap_app|].
    rewrite <- app_assoc. apply Permutation_app_head. cbn [app]. reflexivity. }
  (* first the FRCT instance *)
  assert (C1 : exists o1, (match fr with
        | None => Ok a
        | Some h => close_handle (set_nfrct a (n_frcti a - 1)) h
        end) = Ok (Ai (fds a) (flows a) (id_to_fd a) (ordered (drop l fd)) (next_h a) o1 (pend a))
        /\ NoDup o1 /\ Permutation o1 (rx :: tx :: st :: rest)).
  { pose proof (i_n _ _ _ _ I) as Hn. rewrite El, ordered_split in Hn. cbn [snd] in Hn. rewrite <- Ed in Hn.
    destruct fr as [h|].
    - destruct o; [|destruct Fr as [_ Fr]; discriminate Fr; reflexivity].
      destruct (close_ok (set_nfrct a (n_frcti a - 1)) h (rx :: tx :: st :: rest)) as (o1 & E1 & N1 & P1).
      + exact (i_nd _ _ _ _ I).
      + exact P.
      + exists o1. split; [|auto]. rewrite E1. unfold with_open, set_nfrct. cbn. do 2 f_equal. lia.
    - destruct o; [destruct Fr as [Fr _]; discriminate Fr; reflexivity|].
      exists (open_h a). split; [|split; [exact (i_nd _ _ _ _ I)|exact P]].
      destruct a; cbn in *. do 2 f_equal. lia. }
  destruct C1 as (o1 & E1 & N1 & P1).
  set (a1 := Ai (fds a) (flows a) (id_to_fd a) (ordered (drop l fd)) (next_h a) o1 (pend a)) in *.
  set (a2 := set_fds (set_map a1 id (-1)) b).
  destruct (close_ok a2 rx (tx :: st :: rest) N1 P1) as (o2 & E2 & N2 & P2).
  destruct (close_ok (with_open a2 o2) tx (st :: rest) N2 P2) as (o3 & E3 & N3 & P3).
  destruct (close_ok (with_open (with_open a2 o2) o3) st rest N3 P3) as (o4 & E4 & N4 & P4).
  exists (set_slot (with_open (with_open (with_open a2 o2) o3) o4) fd flow_clear).
  split.
  { unfold flow_fini, get_slot, SYS_MAX_FLOWS, PROG_MAX_FLOWS.
    replace (negb ((0 <=? fd) && (fd <? 10240))) with false by lia.
    replace ((0 <=? fd) && (fd <? 4096)) with true by lia. cbn [bind].
    rewrite Es. cbn [f_frct f_id f_rx f_tx f_set f_linked]. rewrite E1. cbn [bind].
    replace (id =? -1) with false by lia.
    replace ((0 <=? id) && (id <? 10240)) with true by lia.
    change (fds a1) with (fds a). rewrite Eb. cbn [bind]. fold a2.
    cbn [close_opt]. rewrite E2. cbn [bind]. rewrite E3. cbn [bind]. rewrite E4. reflexivity. }
  split; [|reflexivity].
  split; cbn [set_slot with_open set_fds set_map a1 a2 fds flows id_to_fd n_frcti next_h open_h pend].
  - exact Hbr.
  - intros p Hp. pose proof Hp as Hp'. apply drop_in in Hp. destruct Hp as [Hp Hne].
    destruct (i_live _ _ _ _ I _ Hp) as (rx' & tx' & st' & fr' & Q).
    exists rx', tx', st', fr'. destruct (Z.eqb_spec (fst p) fd); [contradiction|exact Q].
  - intros x Hx. rewrite owner_drop in Hx. destruct (Z.eqb_spec x fd); [left; reflexivity|].
    exact (i_free _ _ _ _ I _ Hx).
  - exact N4.
  - eapply Permutation_trans; [exact P4|]. unfold rest. rewrite <- Ed.
    match goal with |- Permutation ?x ?y => assert (E : x = y) end; [|rewrite E; reflexivity].
    apply all_hs_ext. exact Hother.
  - intros h Hh. apply (i_lt _ _ _ _ I).
    assert (In h rest) by (eapply Permutation_in; [exact P4|exact Hh]).
    eapply Permutation_in; [apply Permutation_sym; exact P|].
    apply in_app_iff. right. cbn. auto.
  - pose proof (i_ids _ _ _ _ I) as NI. rewrite El, map_app in NI. cbn in NI. apply NoDup_remove_1 in NI.
    rewrite Ed, map_app. exact NI.
  - intros x Hx. pose proof (i_map _ _ _ _ I x Hx) as M.
    rewrite (holder_drop l fd (fd, (id, o)) x (i_ids _ _ _ _ I) NF Hin eq_refl).
    change (idof (fd, (id, o))) with id. destruct (Z.eqb_spec x id); [reflexivity|exact M].
  - intros p Hp. apply drop_in in Hp. apply (i_known _ _ _ _ I). tauto.
  - reflexivity.
Qed.

(* ---- flow_init ---- *)
Lemma close_all cl : forall a rest, NoDup (open_h a) -> Permutation (open_h a) (cl ++ rest) ->
  exists o, fold_left (fun r h => bind r (fun a => close_handle a h)) cl (Ok a) = Ok (with_open a o)
            /\ NoDup o /\ Permutation o rest.
Proof.
  induction cl as [|h cl IH]; intros a rest ND P.
  - exists (open_h a). destruct a; auto.
  - destruct (close_ok a h (cl ++ rest) ND P) as (o & E & N1 & P1).
    cbn [fold_left bind]. rewrite E. destruct (IH (with_open a o) rest N1 P1) as (o' & E' & Q).
    exists o'. rewrite E'. auto.
Qed.

Lemma free_slot_frct a l kn d fd : Core a l kn d -> owner l fd = None ->
  f_frct (flows a fd) = None /\ f_linked (flows a fd) = false.
Proof.
  intros I H. destruct (i_free _ _ _ _ I fd H) as [E|(_ & E & F)]; [rewrite E; auto|auto].
Qed.

Lemma fail_core a0 l kn d fd b a s cl : Core a0 l kn d ->
  owner l fd = None -> BitmapSpec.reach 4032 64 b (fd :: map fst l) ->
  fds a = b -> (forall x, flows a x = if x =? fd then s else flows a0 x) ->
  f_frct s = None -> f_linked s = false ->
  id_to_fd a = id_to_fd a0 -> n_frcti a = n_frcti a0 -> pend a = pend a0 ->
  NoDup (open_h a) -> Permutation (open_h a) (cl ++ open_h a0) ->
  (next_h a0 <= next_h a)%nat ->
  exists a', fail_out a fd cl = Ok (a', ENOMEM) /\ Core a' l kn true /\ pend a' = pend a0.
Proof.
  intros I Hf R Eb Efl Fs Ls Em En Ep ND P Hlt.
  destruct (close_all cl a (open_h a0) ND P) as (o & E & N1 & P1).
  destruct (BitmapProofs.c01_release _ _ _ _ fd B1 R (or_introl eq_refl)) as (b' & Eb').
  exists (set_fds (with_open a o) b').
  assert (Ho : forall p, In p l -> flows a (fst p) = flows a0 (fst p)).
  { intros p Hp. rewrite Efl. destruct (Z.eqb_spec (fst p) fd) as [E1|E1]; [|reflexivity].
    exfalso. apply (proj1 (owner_none l fd) Hf). rewrite <- E1. apply in_map; exact Hp. }
  split.
  { unfold fail_out. rewrite E. cbn [bind]. cbn [with_open fds]. rewrite Eb, Eb'. reflexivity. }
  split; [|exact Ep].
  split; cbn [set_fds with_open fds flows id_to_fd n_frcti next_h open_h pend].
  - assert (Q : BitmapSpec.reach 4032 64 b' (remove Z.eq_dec fd (fd :: map fst l))).
    { eapply BitmapSpec.reach_release; [exact R|left; reflexivity|exact Eb']. }
    cbn [remove] in Q. destruct (Z.eq_dec fd fd) as [_|Q']; [|contradiction].
    rewrite notin_remove in Q; [exact Q|]. apply owner_none. exact Hf.
  - intros p Hp. destruct (i_live _ _ _ _ I p Hp) as (rx & tx & st & fr & Q).
    exists rx, tx, st, fr. rewrite (Ho p Hp). exact Q.
  - intros x Hx. rewrite Efl. destruct (Z.eqb_spec x fd) as [E1|E1].
    + right. auto.
    + destruct (i_free _ _ _ _ I x Hx) as [Q|(_ & Q)]; [left; exact Q|right; auto].
  - exact N1.
  - rewrite (all_hs_ext (flows a) (flows a0) l Ho). rewrite P1. exact (i_perm _ _ _ _ I).
  - intros h Hh. pose proof (i_lt _ _ _ _ I h (Permutation_in _ P1 Hh)). lia.
  - exact (i_ids _ _ _ _ I).
  - rewrite Em. exact (i_map _ _ _ _ I).
  - exact (i_known _ _ _ _ I).
  - rewrite En. exact (i_n _ _ _ _ I).
Qed.

Lemma fail_eqb_eq x y : fail_eqb x y = true <-> x = y.
Proof. destruct x, y; cbn; split; intros H; try reflexivity; discriminate. Qed.

Lemma alloc_core a l kn d id o f : Core a l kn d -> 0 <= id < 10240 -> holder l id = None ->
  (f = FailAdd -> o = false) ->
  exists a' r, flow_init a id o f = Ok (a', r) /\ pend a' = pend a /\
   ((exists fd, r = RFd fd /\ fails o f = false /\ 64 <= fd < 4096 /\ owner l fd = None /\
       Core a' ((fd, (id, o)) :: l) (id :: kn) d)
    \/ (r = EBADF /\ Z.of_nat (length l) = 4032 /\ Core a' l kn d)
    \/ (r = ENOMEM /\ fails o f = true /\ Core a' l kn true)).
Proof.
  intros I Hid Hh Hadd.
  destruct (BitmapProofs.c01_alloc _ _ _ _ B1 (i_fds _ _ _ _ I)) as (b & fd & Eb & Hc).
  unfold flow_init. rewrite Eb.
  destruct Hc as [(Efd & Hall)|(Hp & Hnin)].
  { (* the pool is exhausted *)
    assert (R : BitmapSpec.reach 4032 64 b (map fst l)).
    { rewrite Efd in Eb. eapply BitmapSpec.reach_alloc_fail; [exact (i_fds _ _ _ _ I)|exact Eb]. }
    assert (V : bmp_is_id_valid b fd = false).
    { apply (BitmapProofs.c02_guard _ _ _ _ fd B1 R). lia. }
    rewrite V. cbn [negb]. exists (set_fds a b), EBADF. split; [reflexivity|]. split; [reflexivity|].
    right. left. split; [reflexivity|].
    assert (Ebb : b = fds a).
    { pose proof (BitmapProofs.reach_inv _ _ _ _ B1 (i_fds _ _ _ _ I)) as (Hb & _).
      destruct (BitmapProofs.allocate_spec _ _ _ B1 Hb) as (b2 & fd2 & E2 & _ & [(_ & Q & _)|(Q & _)]);
        rewrite Eb in E2; injection E2 as E2a E2b; [congruence|].
      unfold BitmapSpec.in_pool in Q. lia. }
    split.
    - destruct (BitmapProofs.c01_capacity _ _ _ _ B1 (i_fds _ _ _ _ I)) as (_ & _ & Q).
      rewrite map_length in Q.
      assert (N.of_nat (length l) = 4032%N).
      { apply Q. rewrite Eb. rewrite Ebb, Efd. reflexivity. }
      lia.
    - destruct I as [I1 I2 I3 I4 I5 I6 I7 I8 I9 I10]. split; cbn; auto. }
  assert (R : BitmapSpec.reach 4032 64 b (fd :: map fst l)).
  { eapply BitmapSpec.reach_alloc_ok; [exact (i_fds _ _ _ _ I)|exact Eb|].
    unfold BitmapSpec.in_pool in Hp. lia. }
  rewrite (BitmapProofs.c02_valid _ _ _ _ fd B1 R Hp). cbn [negb].
  assert (Hr : 64 <= fd < 4096) by (unfold BitmapSpec.in_pool in Hp; lia).
  assert (Ho : owner l fd = None) by (apply owner_none; exact Hnin).
  destruct (free_slot_frct _ _ _ _ _ I Ho) as [Hfr Hln].
  unfold get_slot, PROG_MAX_FLOWS, SYS_MAX_FLOWS.
  replace ((0 <=? fd) && (fd <? 4096)) with true by lia. cbn [bind set_fds flows].
  set (s0 := flows a fd) in *.
  assert (Nn : forall k, ~ In (k + next_h a)%nat (open_h a)).
  { intros k Hk. apply (i_lt _ _ _ _ I) in Hk. lia. }
  pose proof (i_nd _ _ _ _ I) as ND.
  assert (ND1 : NoDup (next_h a :: open_h a)) by (constructor; [exact (Nn 0%nat)|exact ND]).
  assert (ND2 : NoDup (S (next_h a) :: next_h a :: open_h a)).
  { constructor; [|exact ND1]. intros [Q|Q]; [lia|exact (Nn 1%nat Q)]. }
  assert (ND3 : NoDup (S (S (next_h a)) :: S (next_h a) :: next_h a :: open_h a)).
  { constructor; [|exact ND2]. intros [Q|[Q|Q]]; [lia|lia|exact (Nn 2%nat Q)]. }
  assert (ND4 : NoDup (S (S (S (next_h a))) :: S (S (next_h a)) :: S (next_h a) :: next_h a :: open_h a)).
  { constructor; [|exact ND3]. intros [Q|[Q|[Q|Q]]]; [lia|lia|lia|exact (Nn 3%nat Q)]. }
  destruct (fail_eqb f FailRx) eqn:F1.
  { apply fail_eqb_eq in F1.
    edestruct (fail_core a l kn d fd b) as (a' & E & Ca & Pa);
      [exact I|exact Ho|exact R| | | | | | | | | | |].
    11:{ exists a', ENOMEM. split; [exact E|]. split; [exact Pa|]. right; right.
         split; [reflexivity|]. split; [subst f; reflexivity|exact Ca]. }
    - reflexivity.
    - intros x. cbn. instantiate (1 := Slot id None (f_tx s0) (f_set s0) (f_frct s0) (f_linked s0)).
      destruct (x =? fd); reflexivity.
    - exact Hfr.
    - exact Hln.
    - reflexivity.
    - reflexivity.
    - reflexivity.
    - exact ND.
    - reflexivity.
    - cbn. lia. }
  cbn [open_handle]. cbn [set_slot set_fds next_h open_h fds flows id_to_fd n_frcti pend].
  destruct (fail_eqb f FailTx) eqn:F2.
  { apply fail_eqb_eq in F2.
    edestruct (fail_core a l kn d fd b) as (a' & E & Ca & Pa);
      [exact I|exact Ho|exact R| | | | | | | | | | |].
    11:{ exists a', ENOMEM. split; [exact E|]. split; [exact Pa|]. right; right.
         split; [reflexivity|]. split; [subst f; reflexivity|exact Ca]. }
    - reflexivity.
    - intros x. cbn. instantiate (1 := Slot id (Some (next_h a)) None (f_set s0) (f_frct s0) (f_linked s0)).
      destruct (x =? fd); reflexivity.
    - exact Hfr.
    - exact Hln.
    - reflexivity.
    - reflexivity.
    - reflexivity.
    - exact ND1.
    - reflexivity.
    - cbn. lia. }
  destruct (fail_eqb f FailSet) eqn:F3.
  { apply fail_eqb_eq in F3.
    edestruct (fail_core a l kn d fd b) as (a' & E & Ca & Pa);
      [exact I|exact Ho|exact R| | | | | | | | | | |].
    11:{ exists a', ENOMEM. split; [exact E|]. split; [exact Pa|]. right; right.
         split; [reflexivity|]. split; [subst f; reflexivity|exact Ca]. }
    - reflexivity.
    - intros x. cbn. instantiate (1 := Slot id (Some (next_h a)) (Some (S (next_h a))) None (f_frct s0) (f_linked s0)).
      destruct (x =? fd); reflexivity.
    - exact Hfr.
    - exact Hln.
    - reflexivity.
    - reflexivity.
    - reflexivity.
    - exact ND2.
    - reflexivity.
    - cbn. lia. }
  destruct (fail_eqb f FailCrypt) eqn:F4.
  { apply fail_eqb_eq in F4.
    edestruct (fail_core a l kn d fd b) as (a' & E & Ca & Pa);
      [exact I|exact Ho|exact R| | | | | | | | | | |].
    11:{ exists a', ENOMEM. split; [exact E|]. split; [exact Pa|]. right; right.
         split; [reflexivity|]. split; [subst f; reflexivity|exact Ca]. }
    - reflexivity.
    - intros x. cbn. instantiate (1 := Slot id (Some (next_h a)) (Some (S (next_h a))) (Some (S (S (next_h a)))) (f_frct s0) (f_linked s0)).
      destruct (x =? fd); reflexivity.
    - exact Hfr.
    - exact Hln.
    - reflexivity.
    - reflexivity.
    - reflexivity.
    - exact ND3.
    - reflexivity.
    - cbn. lia. }
  rewrite Hfr. unfold init_frct.
  assert (Succ : forall a2 fr, fds a2 = b ->
    (forall x, x <> fd -> flows a2 x = flows a x) ->
    id_to_fd a2 = id_to_fd a -> pend a2 = pend a ->
    n_frcti a2 = n_frcti a + (if o then 1 else 0) ->
    NoDup (open_h a2) ->
    Permutation (open_h a2) (olist fr ++ S (S (next_h a)) :: S (next_h a) :: next_h a :: open_h a) ->
    (forall h, In h (open_h a2) -> (h < next_h a2)%nat) ->
    (fr = None <-> o = false) ->
    Core (set_map (set_slot a2 fd (Slot id (Some (next_h a)) (Some (S (next_h a))) (Some (S (S (next_h a)))) fr true)) id fd)
         ((fd, (id, o)) :: l) (id :: kn) d).
  { intros a2 fr Eb2 Efl2 Em2 Ep2 En2 ND' P' Lt' Hfo.
    assert (Hoth : forall p, In p l -> (fst p =? fd) = false).
    { intros p Hp'. apply Z.eqb_neq. intros Q. apply Hnin. rewrite <- Q. apply in_map; exact Hp'. }
    split; cbn [set_map set_slot fds flows id_to_fd n_frcti next_h open_h pend].
    - cbn [map fst]. rewrite Eb2. exact R.
    - intros p [Hp'|Hp'].
      + subst p. exists (next_h a), (S (next_h a)), (S (S (next_h a))), fr. cbn [fst snd]. rewrite Z.eqb_refl.
        split; [reflexivity|]. split; [exact Hfo|exact Hid].
      + destruct (i_live _ _ _ _ I p Hp') as (rx & tx & st & fr' & Q).
        exists rx, tx, st, fr'. rewrite (Hoth p Hp'), Efl2; [exact Q|]. apply Z.eqb_neq. auto.
    - intros x Hx. cbn [owner] in Hx. destruct (Z.eqb_spec fd x) as [E1|E1]; [discriminate|].
      destruct (Z.eqb_spec x fd) as [E2|E2]; [lia|]. rewrite Efl2 by lia. exact (i_free _ _ _ _ I x Hx).
    - exact ND'.
    - cbn [all_hs flat_map fst]. rewrite Z.eqb_refl. unfold hs at 1. cbn [f_frct f_rx f_tx f_set].
      match goal with |- Permutation _ (_ ++ ?t) => assert (E : t = all_hs (flows a) l) end.
      { unfold all_hs. fold (all_hs (fun x => if x =? fd then Slot id (Some (next_h a)) (Some (S (next_h a))) (Some (S (S (next_h a)))) fr true else flows a2 x) l).
        fold (all_hs (flows a) l). apply all_hs_ext. intros p Hp'. rewrite (Hoth p Hp'). apply Efl2. apply Z.eqb_neq. auto. }
      rewrite E. eapply Permutation_trans; [exact P'|]. rewrite <- app_assoc. apply Permutation_app_head.
      cbn [olist app].
      eapply Permutation_trans; [apply perm_swap|].
      eapply Permutation_trans; [apply perm_skip; apply perm_swap|].
      eapply Permutation_trans; [apply perm_swap|].
      apply perm_skip. apply perm_skip. apply perm_skip. exact (i_perm _ _ _ _ I).
    - exact Lt'.
    - cbn [map]. constructor; [apply holder_none; exact Hh|exact (i_ids _ _ _ _ I)].
    - intros x Hx. rewrite Em2. cbn [holder].
      destruct (Z.eqb_spec x id) as [E1|E1].
      + subst x. rewrite Z.eqb_refl. reflexivity.
      + destruct (Z.eqb_spec id x); [lia|]. destruct Hx as [Hx|Hx]; [lia|]. exact (i_map _ _ _ _ I x Hx).
    - intros p [Hp'|Hp']; [subst p; left; reflexivity|right; exact (i_known _ _ _ _ I p Hp')].
    - cbn [ordered]. rewrite En2, (i_n _ _ _ _ I). lia. }
  destruct o; cbn [negb].
  - (* delivered in order *)
    destruct (fail_eqb f FailFrct) eqn:F5.
    { apply fail_eqb_eq in F5.
      edestruct (fail_core a l kn d fd b) as (a' & E & Ca & Pa);
        [exact I|exact Ho|exact R| | | | | | | | | | |].
      11:{ cbn [open_handle]. rewrite E. exists a', ENOMEM. split; [reflexivity|]. split; [exact Pa|]. right; right.
           split; [reflexivity|]. split; [subst f; reflexivity|exact Ca]. }
      - reflexivity.
      - intros x. cbn. instantiate (1 := Slot id (Some (next_h a)) (Some (S (next_h a))) (Some (S (S (next_h a)))) None false).
        rewrite Hln. destruct (x =? fd); reflexivity.
      - reflexivity.
      - reflexivity.
      - reflexivity.
      - reflexivity.
      - reflexivity.
      - exact ND3.
      - reflexivity.
      - cbn. lia. }
    cbn [open_handle].
    destruct (fail_eqb f FailAdd) eqn:F6.
    { apply fail_eqb_eq in F6. specialize (Hadd F6). discriminate. }
    cbn [bind].
    replace ((0 <=? id) && (id <? 10240)) with true by lia.
    eexists. exists (RFd fd). split; [reflexivity|]. split; [reflexivity|]. left.
    exists fd. split; [reflexivity|]. split; [destruct f; try reflexivity; discriminate|].
    split; [exact Hr|]. split; [exact Ho|].
    apply Succ; cbn.
    + reflexivity.
    + intros x Hx. destruct (Z.eqb_spec x fd); [contradiction|reflexivity].
    + reflexivity.
    + reflexivity.
    + lia.
    + exact ND4.
    + reflexivity.
    + intros h [Q|[Q|[Q|[Q|Q]]]]; try lia. apply (i_lt _ _ _ _ I) in Q. lia.
    + split; discriminate.
  - cbn [bind].
    replace ((0 <=? id) && (id <? 10240)) with true by lia.
    eexists. exists (RFd fd). split; [reflexivity|]. split; [reflexivity|]. left.
    exists fd. split; [reflexivity|]. split; [destruct f; try reflexivity; discriminate|].
    split; [exact Hr|]. split; [exact Ho|].
    apply Succ; cbn.
    + reflexivity.
    + intros x Hx. destruct (Z.eqb_spec x fd); [contradiction|reflexivity].
    + reflexivity.
    + reflexivity.
    + lia.
    + exact ND3.
    + reflexivity.
    + intros h [Q|[Q|[Q|Q]]]; try lia. apply (i_lt _ _ _ _ I) in Q. lia.
    + split; reflexivity.
Qed.

(* ---- calls on a descriptor ---- *)
Lemma touch_live a l kn d fd id o : Core a l kn d -> owner l fd = Some (id, o) ->
  touch a (flows a fd) = Ok (a, RFlow id) /\ f_id (flows a fd) = id /\ 0 <= id.
Proof.
  intros I H. pose proof (owner_some _ _ _ H) as Hin.
  destruct (i_live _ _ _ _ I _ Hin) as (rx & tx & st & fr & E & _ & Hid).
  unfold idof in *. cbn [fst snd] in *. unfold touch. rewrite E. cbn [f_rx f_tx f_id].
  assert (Hi : forall h, In h [rx; tx] -> is_open a h = true).
  { intros h Hh. apply is_open_in. eapply Permutation_in; [apply Permutation_sym; exact (i_perm _ _ _ _ I)|].
    unfold all_hs. apply in_flat_map. exists (fd, (id, o)). split; [exact Hin|]. cbn [fst]. rewrite E.
    unfold hs. apply in_app_iff. right. cbn. destruct Hh as [Q|[Q|[]]]; auto. }
  rewrite !Hi by (cbn; auto). split; [reflexivity|]. split; [reflexivity|lia].
Qed.

Lemma free_id a l kn d fd : Core a l kn d -> owner l fd = None -> d = false -> f_id (flows a fd) = -1.
Proof.
  intros I H Hd. destruct (i_free _ _ _ _ I fd H) as [E|(E & _)]; [rewrite E; reflexivity|congruence].
Qed.

(* ---- exit ---- *)
Lemma exit_core l0 : forall a l kn, Core a l kn false -> (forall fd, In fd l0 -> 0 <= fd < 4096) ->
  exists a', exit_loop a l0 = Ok a' /\ Core a' (fold_left drop l0 l) kn false /\ pend a' = pend a.
Proof.
  induction l0 as [|fd l0 IH]; intros a l kn I Hr.
  - exists a. auto.
  - unfold exit_loop. cbn [fold_left bind]. unfold exit_slot at 2, get_slot, PROG_MAX_FLOWS.
    pose proof (Hr fd (or_introl eq_refl)) as H0.
    replace ((0 <=? fd) && (fd <? 4096)) with true by lia. cbn [bind].
    destruct (owner l fd) as [[id o]|] eqn:Ho.
    + destruct (touch_live _ _ _ _ _ _ _ I Ho) as (Ht & Hi & Hpos).
      rewrite Hi. replace (id =? -1) with false by lia.
      unfold touch in Ht. destruct (f_rx (flows a fd)) as [rx|]; [|discriminate].
      destruct (f_tx (flows a fd)) as [tx|]; [|discriminate].
      destruct (is_open a rx); [|discriminate].
      destruct (fini_core _ _ _ _ _ _ I Ho) as (a1 & E1 & C1 & P1). rewrite E1.
      destruct (IH a1 (drop l fd) kn C1 (fun x Hx => Hr x (or_intror Hx))) as (a2 & E2 & C2 & P2).
      exists a2. split; [exact E2|]. split; [exact C2|congruence].
    + rewrite (free_id _ _ _ _ _ I Ho eq_refl). cbn [Z.eqb].
      destruct (IH a l kn I (fun x Hx => Hr x (or_intror Hx))) as (a2 & E2 & C2 & P2).
      exists a2. split; [exact E2|]. split; [|exact P2].
      rewrite drop_notin by (apply owner_none; exact Ho). exact C2.
Qed.

Lemma fold_drop_in l0 : forall l p, In p (fold_left drop l0 l) <-> In p l /\ ~ In (fst p) l0.
Proof.
  induction l0 as [|fd l0 IH]; intros l p; cbn [fold_left In]; [tauto|].
  rewrite IH, drop_in. intuition congruence.
Qed.

Lemma all_fds_in fd : In fd all_fds <-> 0 <= fd < 4096.
Proof.
  unfold all_fds. rewrite in_map_iff. split.
  - intros (n & E & Hn). apply in_seq in Hn. unfold PROG_MAX_FLOWS in Hn. lia.
  - intros H. exists (Z.to_nat fd). split; [lia|]. apply in_seq. unfold PROG_MAX_FLOWS. lia.
Qed.

Opaque all_fds.

Lemma fold_drop_all a l kn d : Core a l kn d -> fold_left drop all_fds l = [].
Proof.
  intros I. destruct (fold_left drop all_fds l) as [|p q] eqn:E; [reflexivity|exfalso].
  assert (H : In p (fold_left drop all_fds l)) by (rewrite E; left; reflexivity).
  destruct (proj1 (fold_drop_in all_fds l p) H) as [H1 H2].
  apply H2. apply all_fds_in. clear H. rename H1 into H. pose proof (fds_range _ _ _ _ _ I H). lia.
Qed.

(* ---- threads in flow_dealloc ---- *)
Lemma pend_find_in l t fd : pend_find l t = Some fd -> In (t, fd) l.
Proof.
  induction l as [|[u x] l IH]; cbn; [discriminate|].
  destruct (Nat.eqb_spec u t) as [E|E]; [intros [= ->]; subst; auto|auto].
Qed.

Lemma pend_del_in l t q : In q (pend_del l t) <-> In q l /\ fst q <> t.
Proof. unfold pend_del. rewrite filter_In. destruct (Nat.eqb_spec (fst q) t); cbn; intuition congruence. Qed.

Lemma pend_del_nodup l t : NoDup (map snd l) -> NoDup (map snd (pend_del l t)).
Proof.
  unfold pend_del. induction l as [|q l IH]; cbn; [auto|]. intros H. inversion H; subst.
  destruct (negb (fst q =? t)%nat); cbn; [|auto]. constructor; [|auto].
  intros Q. apply H2. apply in_map_iff in Q. destruct Q as (x & Ex & Hx). apply filter_In in Hx.
  rewrite <- Ex. apply in_map. tauto.
Qed.

(* A descriptor is deallocated by one thread only. *)
Lemma pend_unique l t fd u : NoDup (map snd l) -> pend_find l t = Some fd -> In (u, fd) (pend_del l t) -> False.
Proof.
  intros ND Hf Hu. apply pend_find_in in Hf. apply pend_del_in in Hu. destruct Hu as [Hu Hne]. cbn in Hne.
  clear - ND Hf Hu Hne. induction l as [|[w x] l IH]; [contradiction|]. cbn in ND. inversion ND; subst.
  destruct Hf as [Q|Q], Hu as [Q'|Q'].
  - congruence.
  - injection Q as -> ->. apply H1. apply in_map_iff. exists (u, fd). auto.
  - injection Q' as -> ->. apply H1. apply in_map_iff. exists (t, fd). auto.
  - exact (IH H2 Q Q').
Qed.

Lemma result_eqb_refl r : result_eqb r r = true.
Proof. destruct r; cbn; try reflexivity; apply Z.eqb_refl. Qed.

Lemma step_inv a v e : Inv a v -> env_ok v e -> careful v e ->
  exists a' r v', step a e = Ok (a', r) /\ accept v e r = Some v' /\ Inv a' v'.
Proof.
  intros J [Hg He] Hc. pose proof (i_core _ _ J) as I.
  destruct e as [id o f|fd|fd|t fd|t ok|id|]; cbn [step accept careful] in *.
  - (* Alloc *)
    destruct He as [Hid Hh].
    destruct (alloc_core _ _ _ _ id o f I Hid Hh Hc) as (a' & r & E & Ep & [Q|[Q|Q]]).
    + destruct Q as (fd & Er & Hf & Hr & Ho & C). subst r.
      exists a', (RFd fd). eexists. split; [exact E|]. split.
      { rewrite Hf, Ho. replace (negb false && (64 <=? fd) && (fd <? 4096) && true) with true by lia. reflexivity. }
      split; cbn [live pending known dirty].
      * exact C.
      * rewrite Ep. exact (i_pend _ _ J).
      * exact (i_pnd _ _ J).
      * intros t x Hx. cbn [owner]. destruct (fd =? x); [discriminate|]. exact (i_plive _ _ J t x Hx).
      * intros x [Q|Q]; [lia|exact (i_kr _ _ J x Q)].
    + destruct Q as (Er & Hl & C). subst r. exists a', EBADF, v. split; [exact E|]. split.
      { unfold full, when. replace (Z.of_nat (length (live v)) =? 4032) with true by lia. reflexivity. }
      split; [exact C|rewrite Ep; exact (i_pend _ _ J)|exact (i_pnd _ _ J)|exact (i_plive _ _ J)|exact (i_kr _ _ J)].
    + destruct Q as (Er & Hf & C). subst r. exists a', ENOMEM. eexists. split; [exact E|].
      split; [rewrite Hf; reflexivity|].
      split; cbn [live pending known dirty]; [exact C|rewrite Ep; exact (i_pend _ _ J)|exact (i_pnd _ _ J)|exact (i_plive _ _ J)|exact (i_kr _ _ J)].
  - (* Use *)
    unfold flow_use, get_slot, answer, in_range, PROG_MAX_FLOWS.
    destruct ((0 <=? fd) && (fd <? 4096)) eqn:Er.
    + replace ((fd <? 0) || (4096 <=? fd)) with false by lia. cbn [bind].
      destruct (owner (live v) fd) as [[id o]|] eqn:Ho.
      * destruct (touch_live _ _ _ _ _ _ _ I Ho) as (Ht & Hi & Hpos).
        rewrite Hi. replace (id <? 0) with false by lia. rewrite Ht.
        exists a, (RFlow id), v. rewrite result_eqb_refl. auto.
      * rewrite (free_id _ _ _ _ _ I Ho).
        2:{ destruct (dirty v); [exfalso; apply Hc; auto|reflexivity]. }
        exists a, ENOTALLOC, v. auto.
    + replace ((fd <? 0) || (4096 <=? fd)) with true by lia.
      exists a, EBADF, v. auto.
  - (* Cntl *)
    destruct Hc as [Hc Hrange].
    unfold flow_cntl, get_slot, answer, in_range, PROG_MAX_FLOWS, SYS_MAX_FLOWS.
    destruct ((0 <=? fd) && (fd <? 4096)) eqn:Er.
    + replace ((fd <? 0) || (10240 <=? fd)) with false by lia. cbn [bind].
      destruct (owner (live v) fd) as [[id o]|] eqn:Ho.
      * destruct (touch_live _ _ _ _ _ _ _ I Ho) as (Ht & Hi & Hpos).
        rewrite Hi. replace (id <? 0) with false by lia. rewrite Ht.
        exists a, (RFlow id), v. rewrite result_eqb_refl. auto.
      * rewrite (free_id _ _ _ _ _ I Ho).
        2:{ destruct (dirty v); [exfalso; apply Hc; auto|reflexivity]. }
        exists a, ENOTALLOC, v. auto.
    + replace ((fd <? 0) || (10240 <=? fd)) with true by lia.
      exists a, EBADF, v. auto.
  - (* DeallocBegin *)
    destruct Hc as (Hc & Hrange & Hnp).
    unfold dealloc_begin, get_slot, answer, in_range, PROG_MAX_FLOWS, SYS_MAX_FLOWS.
    destruct ((0 <=? fd) && (fd <? 4096)) eqn:Er.
    + replace ((fd <? 0) || (10240 <=? fd)) with false by lia. cbn [bind].
      destruct (owner (live v) fd) as [[id o]|] eqn:Ho.
      * destruct (touch_live _ _ _ _ _ _ _ I Ho) as (Ht & Hi & Hpos).
        rewrite Hi. replace (id <? 0) with false by lia. rewrite Ht. cbn [bind].
        eexists. exists RPending. eexists. split; [reflexivity|]. split; [reflexivity|].
        split; cbn [live pending known dirty set_pend pend].
        -- destruct I as [I1 I2 I3 I4 I5 I6 I7 I8 I9 I10]. split; cbn; auto.
        -- rewrite (i_pend _ _ J). reflexivity.
        -- cbn [map snd]. constructor; [exact Hnp|exact (i_pnd _ _ J)].
        -- intros u x [Q|Q]; [injection Q as <- <-; rewrite Ho; discriminate|exact (i_plive _ _ J u x Q)].
        -- exact (i_kr _ _ J).
      * rewrite (free_id _ _ _ _ _ I Ho).
        2:{ destruct (dirty v); [exfalso; apply Hc; auto|reflexivity]. }
        exists a, ENOTALLOC, v. auto.
    + replace ((fd <? 0) || (10240 <=? fd)) with true by lia.
      exists a, EINVAL, v. auto.
  - (* DeallocEnd *)
    unfold dealloc_end. rewrite (i_pend _ _ J).
    destruct (pend_find (pending v) t) as [fd|] eqn:Hf.
    + destruct ok.
      * assert (I' : Core (set_pend a (pend_del (pending v) t)) (live v) (known v) (dirty v)).
        { destruct I as [I1 I2 I3 I4 I5 I6 I7 I8 I9 I10]. split; cbn; auto. }
        destruct (owner (live v) fd) as [w|] eqn:Ho.
        2:{ exfalso. exact (i_plive _ _ J t fd (pend_find_in _ _ _ Hf) Ho). }
        destruct (fini_core _ _ _ _ _ _ I' Ho) as (a' & E & C & P).
        rewrite E. cbn [bind]. exists a', (RFd 0). eexists. split; [reflexivity|]. split; [reflexivity|].
        split; cbn [live pending known dirty].
        -- exact C.
        -- rewrite P. reflexivity.
        -- apply pend_del_nodup. exact (i_pnd _ _ J).
        -- intros u x Hx. rewrite owner_drop. destruct (Z.eqb_spec x fd) as [Q|Q].
           ++ subst x. exfalso. exact (pend_unique _ _ _ _ (i_pnd _ _ J) Hf Hx).
           ++ apply (i_plive _ _ J u x). apply pend_del_in in Hx. tauto.
        -- exact (i_kr _ _ J).
      * eexists. exists EIRMD. eexists. split; [reflexivity|]. split; [reflexivity|].
        split; cbn [live pending known dirty set_pend pend].
        -- destruct I as [I1 I2 I3 I4 I5 I6 I7 I8 I9 I10]. split; cbn; auto.
        -- reflexivity.
        -- apply pend_del_nodup. exact (i_pnd _ _ J).
        -- intros u x Hx. apply (i_plive _ _ J u x). apply pend_del_in in Hx. tauto.
        -- exact (i_kr _ _ J).
    + exists a, EINVAL, v. auto.
  - (* Lookup *)
    unfold lookup, SYS_MAX_FLOWS.
    pose proof (i_kr _ _ J id Hc) as Hr. replace ((0 <=? id) && (id <? 10240)) with true by lia.
    rewrite (i_map _ _ _ _ I id Hc).
    destruct (holder (live v) id) as [fd|]; eexists; eexists; exists v;
      (split; [reflexivity|]); rewrite result_eqb_refl; auto.
  - (* Exit *)
    rewrite Hc in I.
    destruct (exit_core all_fds a _ _ I) as (a' & E & C & P).
    { intros fd Hfd. apply all_fds_in. exact Hfd. }
    rewrite (fold_drop_all _ _ _ _ I) in C.
    rewrite E. cbn [bind]. exists a', (RFd 0). eexists. split; [reflexivity|]. split; [reflexivity|].
    split; cbn [live pending known dirty].
    + rewrite Hc. exact C.
    + rewrite P, (i_pend _ _ J). exact He.
    + constructor.
    + intros t fd [].
    + exact (i_kr _ _ J).
Qed.

Lemma inv_init : Inv ai_init view0.
Proof.
  split; cbn; try tauto; try constructor; try reflexivity; cbn; try tauto.
  - exact (BitmapSpec.reach_create 4032 64).
  - constructor.
  - constructor.
Qed.

Lemma reach_inv a v : reach careful a v -> Inv a v.
Proof.
  induction 1 as [|a v e a' r v' H IH He Hc Hs Ha]; [exact inv_init|].
  destruct (step_inv a v e IH He Hc) as (a2 & r2 & v2 & E2 & A2 & I2).
  rewrite Hs in E2. injection E2 as <- <-. rewrite Ha in A2. injection A2 as <-. exact I2.
Qed.
