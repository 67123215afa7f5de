(** Property theorems about the registry of the IRM daemon: C36 (process
    bindings), C73 (no request aborts the daemon, in part) and C75 (a program
    that is unbound is not started any more). *)

From Coq Require Import List NArith ZArith Bool String Lia.
From Coq Require Import ZifyBool ZifyNat ZifyN.
From Verif Require Import BitmapModel RegModel RegSpec RegProofs RegBindProofs.
Import ListNotations.
Open Scope string_scope.
Open Scope Z_scope.

(** ** C36 *)

(** After any history names, processes and programs are unique, and a name
    lists a process exactly if the process lists the name. *)
Theorem reg_bindings_consistent : forall es r, run reg_init es = Ok r ->
  NoDup (map n_name (r_names r)) /\ NoDup (map p_pid (r_procs r)) /\
  NoDup (map g_name (r_progs r)) /\
  (forall n, In n (r_names r) -> NoDup (n_procs n)) /\
  (forall p, In p (r_procs r) -> NoDup (p_names p)) /\
  (forall pid s, proc_has r pid s <-> name_has r s pid) /\
  (forall pid s, waits r s pid -> name_has r s pid).
Proof.
  intros es r H. destruct (run_ninv es reg_init r ninv_init H) as [I1 I2 I3 I4 I5 I6 I7 I8 I9 I10].
  repeat (split; [assumption|]). intros pid s (n & N1 & N2 & N3). exists n. split; [exact N1|].
  split; [exact N2|]. exact (I9 n N1 pid N3).
Qed.
Print Assumptions reg_bindings_consistent.

(** Destroying a process takes it off every name and leaves the bindings of
    all other processes as they are. *)
Theorem reg_destroy_proc_unbinds : forall es r pid r' rep,
  run reg_init es = Ok r -> step r (EDestroyProc pid) = Ok (r', rep) ->
  rep = RInt 0 /\
  (forall p, In p (r_procs r') -> p_pid p <> pid) /\
  (forall s, ~ name_has r' s pid /\ ~ waits r' s pid) /\
  (forall s q, q <> pid -> (name_has r' s q <-> name_has r s q) /\ (waits r' s q <-> waits r s q)).
Proof.
  intros es r pid r' rep H E. pose proof (run_ninv es reg_init r ninv_init H) as I.
  cbn [step] in E. pose proof (destroy_proc_ninv _ _ _ _ E I) as I'.
  destruct (destroy_proc_spec _ _ _ _ E I) as (Er & D). split; [exact Er|].
  assert (Hp : forall p, In p (r_procs r') -> p_pid p <> pid).
  { destruct D as [(D1 & ->)|(names' & -> & F)].
    - apply (find_no_key p_pid pid (is_proc pid) (is_proc_iff pid) _ D1).
    - intros p Hp. cbn in Hp.
      apply (in_del p_pid pid (is_proc pid) (is_proc_iff pid)) in Hp; [tauto|apply I]. }
  assert (Hn : forall s, ~ name_has r' s pid).
  { intros s X. apply (ni_bind r' I') in X. destruct X as (p & P1 & P2 & _). exact (Hp p P1 P2). }
  split; [exact Hp|]. split.
  - intros s. split; [apply Hn|]. intros (n & N1 & N2 & N3). apply (Hn s). exists n.
    split; [exact N1|]. split; [exact N2|]. exact (ni_active r' I' n N1 pid N3).
  - intros s q Hq. destruct D as [(D1 & ->)|(names' & -> & F)]; [tauto|].
    assert (X : forall n n', In n (r_names r) -> name_del_proc n pid = Ok n' ->
              n_name n' = n_name n /\ (In q (n_procs n') <-> In q (n_procs n)) /\
              (In q (n_active n') <-> In q (n_active n))).
    { intros n n' Hin Ed.
      destruct (name_del_proc_inv _ _ _ (ni_nprocs r I n Hin) Ed) as (X1 & _ & _ & _ & X5 & X6 & X7).
      split; [exact X1|]. split; [rewrite (X5 q); tauto|].
      destruct (in_dec N.eq_dec pid (n_procs n)) as [J|J].
      - rewrite (X6 J), in_del_all. tauto.
      - rewrite (X7 J). tauto. }
    assert (F2 : Forall2 (fun n n' => In n (r_names r) /\ name_del_proc n pid = Ok n') (r_names r) names').
    { clear - F. assert (G : forall l l', incl l (r_names r) ->
        Forall2 (fun n n' => name_del_proc n pid = Ok n') l l' ->
        Forall2 (fun n n' => In n (r_names r) /\ name_del_proc n pid = Ok n') l l').
      { intros l l' Hi HF. induction HF as [|a b t t' X _ IH]; constructor.
        - split; [apply Hi; left; reflexivity|exact X].
        - apply IH. intros x Hx. apply Hi. right. exact Hx. }
      apply G; [intros x Hx; exact Hx|exact F]. }
    split; split.
    + intros (n' & N1 & N2 & N3). destruct (forall2_in _ _ _ _ F2 N1) as (n & M1 & _ & M2).
      destruct (X n n' M1 M2) as (X1 & X2 & X3). exists n. rewrite <- X1. tauto.
    + intros (n & N1 & N2 & N3). destruct (forall2_in_l _ _ _ _ F2 N1) as (n' & M1 & _ & M2).
      destruct (X n n' N1 M2) as (X1 & X2 & X3). exists n'. rewrite X1. tauto.
    + intros (n' & N1 & N2 & N3). destruct (forall2_in _ _ _ _ F2 N1) as (n & M1 & _ & M2).
      destruct (X n n' M1 M2) as (X1 & X2 & X3). exists n. rewrite <- X1. tauto.
    + intros (n & N1 & N2 & N3). destruct (forall2_in_l _ _ _ _ F2 N1) as (n' & M1 & _ & M2).
      destruct (X n n' N1 M2) as (X1 & X2 & X3). exists n'. rewrite X1. tauto.
Qed.
Print Assumptions reg_destroy_proc_unbinds.

(** Binding and unbinding change exactly the pair asked for, and say whether
    they did. *)
Theorem reg_bind_proc_exact : forall es r s pid r' rep,
  run reg_init es = Ok r -> step r (EBindProc s pid) = Ok (r', rep) ->
  (rep = RInt (-1) /\ r' = r) \/
  (rep = RInt 0 /\ ~ name_has r s pid /\ name_has r' s pid /\
   forall q x, (q <> pid \/ x <> s) -> (name_has r' x q <-> name_has r x q)).
Proof.
  intros es r s pid r' rep H E. pose proof (run_ninv es reg_init r ninv_init H) as I.
  exact (proj2 (bind_proc_ninv _ _ _ _ _ E I)).
Qed.
Print Assumptions reg_bind_proc_exact.

Theorem reg_unbind_proc_exact : forall es r s pid r' rep,
  run reg_init es = Ok r -> step r (EUnbindProc s pid) = Ok (r', rep) ->
  (rep = RInt (-1) /\ r' = r /\ ~ name_has r s pid) \/
  (rep = RInt 0 /\ name_has r s pid /\ ~ name_has r' s pid /\
   forall q x, (q <> pid \/ x <> s) -> (name_has r' x q <-> name_has r x q)).
Proof.
  intros es r s pid r' rep H E. pose proof (run_ninv es reg_init r ninv_init H) as I.
  exact (proj2 (unbind_proc_ninv _ _ _ _ _ E I)).
Qed.
Print Assumptions reg_unbind_proc_exact.

(** A bind is refused only if the name or the process does not exist or they
    are bound already. *)
Theorem reg_bind_proc_refused : forall es r s pid r',
  run reg_init es = Ok r -> step r (EBindProc s pid) = Ok (r', RInt (-1)) ->
  ~ In s (map n_name (r_names r)) \/ ~ In pid (map p_pid (r_procs r)) \/ name_has r s pid.
Proof.
  intros es r s pid r' H E. cbn [step] in E. unfold bind_proc in E. unfold assert at 1 in E.
  destruct (0 <? pid)%N; [|discriminate E].
  destruct (get_name r s) as [n|] eqn:En.
  2:{ left. intros X. apply in_map_iff in X. destruct X as (n & X1 & X2).
      exact (find_no_key n_name s (is_name s) (is_name_iff s) _ En n X2 X1). }
  destruct (get_proc r pid) as [p|] eqn:Ep.
  2:{ right. left. intros X. apply in_map_iff in X. destruct X as (n0 & X1 & X2).
      exact (find_no_key p_pid pid (is_proc pid) (is_proc_iff pid) _ Ep n0 X2 X1). }
  destruct (has_pid pid (n_procs n)) eqn:Eh.
  - right. right. apply has_pid_iff in Eh.
    destruct (find_key n_name s (is_name s) (is_name_iff s) _ _ En) as (G1 & G2). exists n. auto.
  - exfalso. destruct (name_add_proc n pid) as [n1|]; [|discriminate E]. unfold assert in E.
    destruct (negb _); [|discriminate E]. cbv zeta in E.
    destruct (get_accept_flow r pid); [|discriminate E].
    destruct (name_add_active n1 pid); discriminate E.
Qed.
Print Assumptions reg_bind_proc_refused.

(** ** C73: which requests cannot abort the daemon *)

(** Requests about names, processes and programs, other than the one to
    destroy a name, from processes with a pid. *)
Definition names_event (e : ev) : Prop :=
  match e with
  | ECreateName _ _ | ECreateProg _ _ | EDestroyProg _ | EBindProg _ _ _ | EUnbindProg _ _ => True
  | ECreateProc pid _ | EDestroyProc pid | EBindProc _ pid | EUnbindProc _ pid => (0 < pid)%N
  | _ => False
  end.

Lemma update_names_total pid gn l acc : (0 < pid)%N -> NoDup (map n_name l) ->
  (forall n, In n l -> ~ In pid (n_procs n)) ->
  (forall n, In n l -> ~ In (n_name n) acc) ->
  exists x, update_names pid gn acc l = Ok x.
Proof.
  intros Hpos. revert acc. induction l as [|n t IH]; intros acc Hn Hp Ha; cbn [update_names]; [eauto|].
  cbn [map] in Hn. inversion Hn as [|? ? Hn1 Hn2]; subst.
  assert (X : has_pid pid (n_procs n) = false) by (apply has_pid_not, Hp; left; reflexivity).
  unfold assert at 1. rewrite X. cbn [negb]. destruct (has_str (n_name n) gn).
  - unfold assert at 1.
    assert (Y : has_str (n_name n) acc = false) by (apply has_str_not, Ha; left; reflexivity).
    rewrite Y. cbn [negb]. unfold name_add_proc, assert. rewrite X. cbn [negb].
    replace (0 <? pid)%N with true by lia.
    destruct (IH (n_name n :: acc)) as ([a t'] & E); auto.
    + intros m Hm. apply Hp. right. exact Hm.
    + intros m Hm [Em|Em]; [|apply (Ha m); [right; exact Hm|exact Em]].
      apply Hn1. rewrite Em. apply in_map. exact Hm.
    + rewrite E. eauto.
  - destruct (IH acc) as ([a t'] & E); auto.
    + intros m Hm. apply Hp. right. exact Hm.
    + intros m Hm. apply Ha. right. exact Hm.
    + rewrite E. eauto.
Qed.

Lemma unregistered_unbound r pid : ninv r -> get_proc r pid = None ->
  forall n, In n (r_names r) -> ~ In pid (n_procs n).
Proof.
  intros I Eg n Hn X. assert (P : name_has r (n_name n) pid) by (exists n; auto).
  apply (ni_bind r I) in P. destruct P as (p & P1 & P2 & _).
  exact (find_no_key p_pid pid (is_proc pid) (is_proc_iff pid) _ Eg p P1 P2).
Qed.

Theorem reg_requests_safe_partial : forall es r e,
  run reg_init es = Ok r -> names_event e -> exists r' rep, step r e = Ok (r', rep).
Proof.
  intros es r e H He. pose proof (run_ninv es reg_init r ninv_init H) as I.
  destruct e; cbn [names_event] in He; try (destruct He; fail); cbn [step].
  - unfold create_name. destruct (get_name r s); eauto.
  - unfold create_proc. destruct (get_proc r pid) eqn:Eg; [eauto|]. cbv zeta.
    destruct (get_prog r prog) as [g|]; [|eauto].
    destruct (update_names_total pid (g_names g) (r_names r) [] He (ni_names r I)
                (unregistered_unbound r pid I Eg)) as ([a t] & ->); [intros n _ []|]. eauto.
  - unfold destroy_proc. destruct (get_proc r pid); [|eauto].
    destruct (map_names_total (fun n => name_del_proc n pid) (r_names r)) as (l & ->); [|eauto].
    intros n Hn. destruct (name_del_proc_ok n pid (ni_nprocs r I n Hn) He) as (n' & E & _). eauto.
  - unfold bind_proc. unfold assert at 1. replace (0 <? pid)%N with true by lia.
    destruct (get_name r s) as [n|] eqn:En; [|eauto].
    destruct (get_proc r pid) as [p|] eqn:Ep; [|eauto].
    destruct (has_pid pid (n_procs n)) eqn:Eh; [eauto|].
    unfold name_add_proc, assert at 1 2. rewrite Eh. cbn [negb].
    replace (0 <? pid)%N with true by lia. unfold assert at 1.
    destruct (find_key n_name s (is_name s) (is_name_iff s) _ _ En) as (G1 & G2).
    destruct (find_key p_pid pid (is_proc pid) (is_proc_iff pid) _ _ Ep) as (G3 & G4).
    replace (has_str s (p_names p)) with false.
    2:{ symmetry. apply has_str_not. intros X.
        assert (P : proc_has r pid s) by (exists p; auto). apply (ni_bind r I) in P.
        destruct P as (m & M1 & M2 & M3).
        assert (m = n) as -> by (apply (key_eq n_name (r_names r)); [apply I|auto|auto|congruence]).
        apply has_pid_iff in M3. congruence. }
    cbn [negb]. cbv zeta. destruct (get_accept_flow r pid); [|eauto].
    unfold name_add_active, assert. replace (0 <? pid)%N with true by lia.
    cbn [set_procs n_procs has_pid existsb]. rewrite N.eqb_refl. cbn [orb]. eauto.
  - unfold unbind_proc. unfold assert at 1. replace (0 <? pid)%N with true by lia.
    destruct (get_name r s) as [n|] eqn:En; [|eauto].
    destruct (get_proc r pid) as [p|] eqn:Ep; [|eauto].
    destruct (find_key n_name s (is_name s) (is_name_iff s) _ _ En) as (G1 & G2).
    destruct (find_key p_pid pid (is_proc pid) (is_proc_iff pid) _ _ Ep) as (G3 & G4).
    destruct (_ && _); [|eauto].
    destruct (name_del_proc_ok n pid (ni_nprocs r I n G1) He) as (n' & -> & _).
    destruct (str_del_ok s (p_names p) (ni_pnames r I p G3)) as (ns & -> & _). eauto.
  - unfold create_prog. destruct (get_prog r s); eauto.
  - unfold destroy_prog. destruct (get_prog r s) as [g|]; [|eauto].
    destruct (map_names_total (fun n => name_del_prog n (g_path g)) (r_names r)) as (l & ->); [|eauto].
    intros n Hn. destruct (name_del_prog_ok n (g_path g) (ni_nprogs r I n Hn)) as (n' & E & _). eauto.
  - unfold bind_prog. destruct (get_name r s) as [n|]; [|eauto].
    destruct (get_prog r (path_strip exec)) as [g|]; [|eauto].
    destruct (has_str exec (n_progs n)) eqn:Eh; [eauto|]. destruct (has_str s (g_names g)); [eauto|].
    destruct auto; [|eauto]. unfold name_add_prog, assert. rewrite Eh. cbn [negb]. eauto.
  - unfold unbind_prog. destruct (get_name r s) as [n|] eqn:En; [|eauto].
    destruct (get_prog r prog) as [g|] eqn:Eg; [|eauto]. destruct (has_str s (g_names g)); [|eauto].
    destruct (find_key n_name s (is_name s) (is_name_iff s) _ _ En) as (G1 & G2).
    destruct (find_key g_name _ (is_prog prog) (is_prog_iff prog) _ _ Eg) as (G3 & G4).
    destruct (name_del_prog_ok n prog (ni_nprogs r I n G1)) as (n' & -> & _).
    destruct (str_del_ok s (g_names g) (ni_gnames r I g G3)) as (ns & -> & _). eauto.
Qed.
Print Assumptions reg_requests_safe_partial.

(** Destroying a name aborts the daemon exactly if a process is bound to the
    name or a program would be started for it. *)
Theorem reg_destroy_name_partial : forall es r s, run reg_init es = Ok r ->
  (step r (EDestroyName s) = Abort <->
   exists n, In n (r_names r) /\ n_name n = s /\ (n_procs n <> [] \/ n_progs n <> [])).
Proof.
  intros es r s H. pose proof (run_ninv es reg_init r ninv_init H) as I. cbn [step].
  unfold destroy_name. destruct (get_name r s) as [n|] eqn:En.
  - destruct (find_key n_name s (is_name s) (is_name_iff s) _ _ En) as (G1 & G2).
    destruct (del_name_progs_ok s (r_progs r) (ni_gnames r I)) as (gs & -> & _).
    assert (Ps : exists ps, del_name_from_procs s (r_procs r) = Ok ps).
    { pose proof (ni_pnames r I) as Hp. clear - Hp. induction (r_procs r) as [|p t IH]; cbn; [eauto|].
      destruct (str_del_ok s (p_names p) (Hp p (or_introl eq_refl))) as (ns & -> & _).
      destruct IH as (t' & ->); [intros q Hq; apply Hp; right; exact Hq|]. eauto. }
    destruct Ps as (ps & ->). unfold name_destroy.
    pose proof (ni_active r I n G1) as HA. split.
    + intros E. exists n. split; [exact G1|]. split; [exact G2|].
      destruct (n_progs n); [|right; discriminate]. destruct (n_procs n); [|left; discriminate].
      destruct (n_active n) as [|x y]; [discriminate E|]. destruct (HA x). left. reflexivity.
    + intros (m & M1 & M2 & M3).
      assert (m = n) as -> by (apply (key_eq n_name (r_names r)); [apply I|auto|auto|congruence]).
      destruct (n_progs n); [|reflexivity]. destruct (n_procs n); [|reflexivity].
      destruct M3; congruence.
  - split; [discriminate|]. intros (m & M1 & M2 & _).
    destruct (find_no_key n_name s (is_name s) (is_name_iff s) _ En m M1 M2).
Qed.
Print Assumptions reg_destroy_name_partial.

(** C73 is false of the code: a name with a bound process cannot be
    destroyed; the request ends the daemon. *)
Theorem reg_destroy_bound_name_refuted :
  exists es r, run reg_init es = Ok r /\ name_has r "srv" 10 /\
    step r (EDestroyName "srv") = Abort.
Proof.
  set (es := [ECreateName "srv" LbRR; ECreateProc 10 "prog"; EBindProc "srv" 10]).
  remember (run reg_init es) as o eqn:Eo.
  assert (A : match o with
              | Ok r => r_names r = [mk_rname "srv" LbRR [] [10%N] []] /\ step r (EDestroyName "srv") = Abort
              | Abort => False
              end) by (rewrite Eo; vm_compute; auto).
  destruct o as [r|]; [|destruct A]. destruct A as (A1 & A2).
  exists es, r. split; [symmetry; exact Eo|]. split; [|exact A2].
  eexists. rewrite A1. split; [left; reflexivity|]. cbn. auto.
Qed.
Print Assumptions reg_destroy_bound_name_refuted.

(** ** C75 *)

(** After its program was destroyed, no name starts the path the program was
    created with. *)
Theorem reg_destroy_prog_partial : forall es r s g r' rep,
  run reg_init es = Ok r -> In g (r_progs r) -> g_name g = s ->
  step r (EDestroyProg s) = Ok (r', rep) ->
  rep = RInt 0 /\ (forall g', In g' (r_progs r') -> g_name g' <> s) /\
  (forall n, In n (r_names r') -> ~ In (g_path g) (n_progs n)) /\
  (forall h x, get_exec r' h x <> Some (g_path g)).
Proof.
  intros es r s g r' rep H Hg Eg E. pose proof (run_ninv es reg_init r ninv_init H) as I.
  cbn [step] in E. unfold destroy_prog in E.
  destruct (find_has_key g_name s (is_prog s) (is_prog_iff s) _ g Hg Eg) as (g0 & Ef).
  unfold get_prog in E. rewrite Ef in E.
  destruct (find_key g_name s (is_prog s) (is_prog_iff s) _ _ Ef) as (G1 & G2).
  assert (g0 = g) as -> by (apply (key_eq g_name (r_progs r)); [apply I|auto|auto|congruence]).
  destruct (map_names _ _) as [names'|] eqn:Em; [|discriminate E]. apply map_names_ok in Em.
  inversion E; subst r' rep. split; [reflexivity|].
  assert (X : forall n, In n names' -> ~ In (g_path g) (n_progs n)).
  { pose proof (ni_nprogs r I) as HN. clear - HN Em. induction Em as [|n n' t t' Y _ IH]; [intros ? []|].
    intros m [<-|Hm].
    - destruct (name_del_prog_ok n (g_path g) (HN n (or_introl eq_refl))) as (n2 & Y1 & _ & _ & _ & _ & Y2).
      rewrite Y in Y1. injection Y1 as <-. rewrite (Y2 (g_path g)). tauto.
    - apply IH; [|exact Hm]. intros q Hq. apply HN. right. exact Hq. }
  split; [|split; [exact X|]].
  - intros g' Hg'. cbn in Hg'.
    apply (in_del g_name s (is_prog s) (is_prog_iff s)) in Hg'; [tauto|apply I].
  - intros h x Eh. unfold get_exec in Eh. cbn [r_names set_names] in Eh.
    destruct (find _ names') as [n|] eqn:Fn; [|discriminate Eh]. apply find_some in Fn.
    apply (X n (proj1 Fn)). destruct (n_progs n); [discriminate Eh|]. injection Eh as ->. left. reflexivity.
Qed.
Print Assumptions reg_destroy_prog_partial.

(** Every name hashes to 0. *)
Definition h0 (_ : string) : N := 0%N.

(** C75 is false of the code: after the program was unbound from the name
    (the call says so), a flow request for the name still starts it. *)
Theorem reg_unbind_prog_refuted :
  exists es r r', run reg_init es = Ok r /\
    step r (EUnbindProg "srv" "prog") = Ok (r', RInt 0) /\
    get_exec r' h0 0 = Some "/bin/prog".
Proof.
  set (es := [ECreateName "srv" LbRR; ECreateProg "prog" "/bin/prog"; EBindProg "srv" "/bin/prog" true]).
  remember (run reg_init es) as o eqn:Eo.
  assert (A : match o with
              | Ok r => match step r (EUnbindProg "srv" "prog") with
                        | Ok (r', RInt 0) => get_exec r' h0 0 = Some "/bin/prog"
                        | _ => False
                        end
              | Abort => False
              end) by (rewrite Eo; vm_compute; auto).
  destruct o as [r|]; [|destruct A].
  destruct (step r (EUnbindProg "srv" "prog")) as [[r' [[| |]| |]]|] eqn:Es; try (destruct A; fail).
  exists es, r, r'. split; [symmetry; exact Eo|]. auto.
Qed.
Print Assumptions reg_unbind_prog_refuted.

(** And neither unbinding nor destroying the program helps if it was bound
    under a second path. *)
Theorem reg_destroy_prog_refuted :
  exists es r r', run reg_init es = Ok r /\
    step r (EDestroyProg "prog") = Ok (r', RInt 0) /\
    r_progs r' = [] /\ get_exec r' h0 0 = Some "/opt/prog".
Proof.
  set (es := [ECreateName "srv" LbRR; ECreateProg "prog" "/bin/prog";
              ECreateProg "prog" "/opt/prog"; EBindProg "srv" "/opt/prog" true]).
  remember (run reg_init es) as o eqn:Eo.
  assert (A : match o with
              | Ok r => match step r (EDestroyProg "prog") with
                        | Ok (r', RInt 0) => r_progs r' = [] /\ get_exec r' h0 0 = Some "/opt/prog"
                        | _ => False
                        end
              | Abort => False
              end) by (rewrite Eo; vm_compute; auto).
  destruct o as [r|]; [|destruct A].
  destruct (step r (EDestroyProg "prog")) as [[r' [[| |]| |]]|] eqn:Es; try (destruct A; fail).
  exists es, r, r'. split; [symmetry; exact Eo|]. auto.
Qed.
Print Assumptions reg_destroy_prog_refuted.

(** Non-vacuity: two names, a program bound to both, processes that start
    from it and one that is bound by hand; then one process goes. *)
Example reg_bind_example :
  match run reg_init [ECreateName "b" LbRR; ECreateName "a" LbSpill; ECreateProg "prog" "/bin/prog";
                      EBindProg "a" "/bin/prog" true; EBindProg "b" "/bin/prog" false;
                      ECreateProc 10 "prog"; ECreateProc 11 "other"; EBindProc "a" 11;
                      EBindProc "a" 11; EUnbindProc "b" 10; EDestroyProc 99] with
  | Ok r => r_names r = [mk_rname "b" LbRR [] [] [];
                         mk_rname "a" LbSpill ["/bin/prog"] [11%N; 10%N] []] /\
            map p_names (r_procs r) = [["a"]; ["a"]] /\
            match step r (EDestroyProc 10) with
            | Ok (r', _) => map n_procs (r_names r') = [[]; [11%N]] /\ map p_pid (r_procs r') = [11%N]
            | Abort => False
            end
  | Abort => False
  end.
Proof. vm_compute. auto. Qed.
