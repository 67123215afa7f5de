(* Property C81: what fccntl sets is what it reports and what reads and writes
   obey. *)
From Coq Require Import List NArith ZArith Bool Lia.
From Verif Require Import DevCtlModel DevCtlSpec.
Import ListNotations.
Open Scope N_scope.

Definition flow_of (s : pair) (w : who) : fl := match w with A => fa s | B => fb s end.

Lemma run_snoc s l e : run s (l ++ [e]) = fst (step (run s l) e).
Proof. unfold run. rewrite fold_left_app. reflexivity. Qed.

Lemma last_snoc {X} (pick : cmd -> option X) w l e x :
  last pick w (l ++ [e]) x =
  match e with
  | Ctl v c => if same v w then match pick c with Some y => y | None => last pick w l x end
               else last pick w l x
  | _ => last pick w l x
  end.
Proof.
  revert x; induction l as [| [v c | v | v] l IH]; intros x.
  - destruct e as [v c | v | v]; cbn; try reflexivity; destruct (same v w); reflexivity.
  - cbn. destruct (same v w); apply IH.
  - cbn. apply IH.
  - cbn. apply IH.
Qed.

Lemma down_snoc l e d :
  down (l ++ [e]) d =
  match e with
  | Ctl _ (SFlags f) => N.testbit f 2
  | Gone _ => true
  | _ => down l d
  end.
Proof.
  revert d; induction l as [| [v c | v | v] l IH]; intros d.
  - destruct e as [v c | v | v]; try reflexivity; destruct c; reflexivity.
  - destruct c; cbn; apply IH.
  - cbn; apply IH.
  - cbn; apply IH.
Qed.

(* One step of either program on its own flow and on the other's. *)
Lemma step_flow s e w :
  flow_of (fst (step s e)) w =
  match e with
  | Ctl v c => if same v w then fst (fst (fst (fccntl (flow_of s w) 0 0 0 0 c))) else flow_of s w
  | _ => flow_of s w
  end.
Proof.
  destruct e as [[|] c | v | [|]]; destruct w; cbn; try reflexivity;
    destruct c; cbn; try reflexivity.
  all: repeat match goal with
       | |- context [let (_, _) := set_flags ?a ?b in _] => destruct (set_flags a b)
       | |- context [match frct ?x with _ => _ end] => destruct (frct x)
       end; reflexivity.
Qed.

Lemma settings q_a q_b r_a r_b l w :
  let f := flow_of (run (start q_a q_b r_a r_b) l) w in
  oflags f = last flags_set w l FLOWFDEFAULT /\
  snd_timeo f = last snd_set w l None /\
  rcv_timeo f = last rcv_set w l None /\
  qs f = match w with A => q_a | B => q_b end.
Proof.
  induction l as [| e l IH] using rev_ind; cbn zeta in *.
  - destruct w; cbn; auto.
  - destruct IH as (I1 & I2 & I3 & I4). rewrite run_snoc, step_flow, !last_snoc.
    destruct e as [v c | v | v]; auto.
    destruct (same v w); auto.
    set (f := flow_of _ w) in *.
    destruct c; cbn; auto.
    + destruct (set_flags f0 0); cbn; auto.
    + destruct (frct f); cbn; auto.
Qed.

(* Getting a setting gives what that program set last, whatever the other
   program did, or says that there is none. *)
Theorem fccntl_gives_last_set : forall q_a q_b r_a r_b l w,
  let s := run (start q_a q_b r_a r_b) l in
  snd (step s (Ctl w (GFlags true))) = Value (last flags_set w l FLOWFDEFAULT) /\
  snd (step s (Ctl w (GSndTimeo true))) =
    match last snd_set w l None with Some t => Time t | None => EPerm end /\
  snd (step s (Ctl w (GRcvTimeo true))) =
    match last rcv_set w l None with Some t => Time t | None => EPerm end /\
  snd (step s (Ctl w (GQosSpec true))) = Value (match w with A => q_a | B => q_b end) /\
  (forall c, In c [GFlags false; GSndTimeo false; GRcvTimeo false; GQosSpec false; FrctG false] ->
     snd (step s (Ctl w c)) = EInval) /\
  (* and getting changes nothing *)
  (forall c, In c [GFlags true; GSndTimeo true; GRcvTimeo true; GQosSpec true; FrctG true; GRxqLen true; GTxqLen true; Unknown] ->
     fst (step s (Ctl w c)) = s).
Proof.
  intros q_a q_b r_a r_b l w s.
  destruct (settings q_a q_b r_a r_b l w) as (I1 & I2 & I3 & I4). fold s in I1, I2, I3, I4.
  destruct w; cbn in I1, I2, I3, I4 |- *; rewrite I1, I2, I3, I4.
  all: repeat split; auto.
  all: intros c Hc; cbn in Hc;
    repeat match goal with H : _ \/ _ |- _ => destruct H as [<- | H] end; try contradiction; cbn; try reflexivity;
    destruct s; reflexivity.
Qed.
Print Assumptions fccntl_gives_last_set.

(* --- the access words --- *)

Lemma land_testbit_pow2 x n : N.land x (2 ^ n) =? 0 = negb (N.testbit x n).
Proof.
  destruct (N.testbit x n) eqn:E; cbn.
  - apply N.eqb_neq. intros H. assert (T : N.testbit (N.land x (2 ^ n)) n = false) by (rewrite H; apply N.bits_0).
    rewrite N.land_spec, E, N.pow2_bits_true in T. discriminate.
  - apply N.eqb_eq. apply N.bits_inj. intros m. rewrite N.bits_0, N.land_spec, N.pow2_bits_eqb.
    destruct (N.eqb_spec n m) as [<- | H]; [rewrite E; reflexivity | apply andb_false_r].
Qed.

Lemma low16 f n : n < 16 -> N.testbit (f mod 65536) n = N.testbit f n.
Proof. intros H. change 65536 with (2 ^ 16). apply N.mod_pow2_bits_low. exact H. Qed.

Lemma b0 x : N.land x 1 =? 0 = negb (N.testbit x 0).
Proof. exact (land_testbit_pow2 x 0). Qed.
Lemma b1 x : N.land x 2 =? 0 = negb (N.testbit x 1).
Proof. exact (land_testbit_pow2 x 1). Qed.
Lemma b2 x : N.land x 4 =? 0 = negb (N.testbit x 2).
Proof. exact (land_testbit_pow2 x 2). Qed.

(* set_flags bit by bit. *)
Lemma set_flags_rx f rx n :
  N.testbit (fst (set_flags f rx)) n =
  match n with
  | 0 => N.testbit rx 0 || N.testbit f 0
  | 1 => N.testbit f 2
  | _ => N.testbit rx n
  end.
Proof.
  unfold set_flags, FLOWFWRONLY, FLOWFRDWR, FLOWFDOWN, ACL_RDONLY, ACL_RDWR, ACL_FLOWDOWN.
  rewrite b0, b1, b2, !low16 by reflexivity.
  rewrite N.lor_0_r.
  destruct (N.testbit f 2); destruct (N.testbit f 1); destruct (N.testbit f 0); cbn [negb fst];
    rewrite ?N.lor_spec, ?N.ldiff_spec, ?N.lor_spec;
    destruct n as [| [p | p |]]; cbn;
    rewrite ?orb_false_r, ?orb_true_r, ?andb_true_r, ?andb_false_r; auto.
  all: destruct p; cbn; rewrite ?orb_false_r, ?andb_true_r; auto.
Qed.

Lemma set_flags_tx f rx n :
  N.testbit (snd (set_flags f rx)) n =
  match n with 1 => N.testbit f 2 | _ => N.testbit rx n end.
Proof.
  unfold set_flags, FLOWFDOWN, ACL_FLOWDOWN. rewrite b2, low16 by reflexivity.
  destruct (N.testbit f 2); cbn [negb snd]; rewrite ?N.lor_spec, ?N.ldiff_spec;
    destruct n as [| [p | p |]]; cbn; rewrite ?orb_false_r, ?orb_true_r, ?andb_true_r, ?andb_false_r; auto.
  all: destruct p; cbn; rewrite ?orb_false_r, ?andb_true_r; auto.
Qed.

Lemma step_rings s w c :
  (forall f, c <> SFlags f) ->
  a2b (fst (step s (Ctl w c))) = a2b s /\ b2a (fst (step s (Ctl w c))) = b2a s.
Proof.
  intros H. destruct w; destruct c; cbn; auto; try (exfalso; eapply H; reflexivity).
  all: destruct (frct _); auto.
Qed.

Lemma step_rings_flags s w f :
  let s' := fst (step s (Ctl w (SFlags f))) in
  match w with
  | A => b2a s' = fst (set_flags f (b2a s)) /\ a2b s' = snd (set_flags f (b2a s))
  | B => a2b s' = fst (set_flags f (a2b s)) /\ b2a s' = snd (set_flags f (a2b s))
  end.
Proof.
  destruct w; cbn.
  - destruct (set_flags f (b2a s)); auto.
  - destruct (set_flags f (a2b s)); auto.
Qed.

Lemma silent_down x : N.testbit (silent_acl x) 1 = N.testbit x 1.
Proof.
  unfold silent_acl. change (N.lor ACL_FLOWPEER ACL_FLOWDOWN) with 6.
  destruct (N.land x 6 =? 0) eqn:E; [| reflexivity].
  apply N.eqb_eq in E. assert (T : N.testbit (N.land x 6) 1 = false) by (rewrite E; reflexivity).
  rewrite N.land_spec in T. cbn in T. rewrite andb_true_r in T. rewrite T. reflexivity.
Qed.

Lemma down_bits q_a q_b r_a r_b l :
  let s := run (start q_a q_b r_a r_b) l in
  N.testbit (a2b s) 1 = down l false /\ N.testbit (b2a s) 1 = down l false.
Proof.
  induction l as [| e l IH] using rev_ind; cbn zeta in *; [split; reflexivity |].
  destruct IH as [I1 I2]. rewrite run_snoc, down_snoc.
  set (s := run _ l) in *.
  destruct e as [w c | w | w].
  - destruct c; try (match goal with |- context [step s (Ctl w ?c)] =>
      destruct (step_rings s w c) as [E1 E2]; [intros; discriminate | rewrite E1, E2; auto] end).
    pose proof (step_rings_flags s w f) as E. cbn zeta in E.
    destruct w; destruct E as [E1 E2]; rewrite E1, E2, set_flags_rx, set_flags_tx; auto.
  - cbn. auto.
  - destruct w; cbn; rewrite ?silent_down; auto.
Qed.

(* The last word on whether the flow is down is what both programs see, in
   every history: a read of an empty flow says so, and no write gets through. *)
Theorem flow_down_reported : forall q_a q_b r_a r_b l w,
  let s := run (start q_a q_b r_a r_b) l in
  (read_gate s w = RDown <-> down l false = true) /\
  (down l false = true -> write_gate s w = WDown \/ write_gate s w = WPerm).
Proof.
  intros q_a q_b r_a r_b l w s.
  destruct (down_bits q_a q_b r_a r_b l) as [D1 D2]. fold s in D1, D2.
  assert (D : forall x, N.testbit x 1 = down l false ->
    ((if negb (N.land x 2 =? 0) then RDown else if negb (N.land x 4 =? 0) then RPeer else RWait) = RDown
       <-> down l false = true) /\
    (down l false = true -> ring_gate x = WDown)).
  { intros x Hx. unfold ring_gate. change ACL_FLOWDOWN with 2. rewrite b1, Hx, negb_involutive.
    split.
    - destruct (down l false); [tauto |]. destruct (negb _); split; discriminate.
    - intros H. rewrite H. destruct (x =? ACL_RDWR) eqn:E; [| reflexivity].
      apply N.eqb_eq in E. subst x. rewrite H in Hx. discriminate. }
  unfold read_gate, write_gate. change ACL_FLOWDOWN with 2. change ACL_FLOWPEER with 4.
  destruct w.
  - split; [apply D; exact D2 |]. intros H. destruct (_ =? FLOWFRDONLY); [auto |]. left. apply D; auto.
  - split; [apply D; exact D1 |]. intros H. destruct (_ =? FLOWFRDONLY); [auto |]. left. apply D; auto.
Qed.
Print Assumptions flow_down_reported.

(* When one program leaves, the other is told that the flow is down.  False:
   setting any flag afterwards, for instance to make reads non-blocking, takes
   the word back, and reads of the dead flow wait. *)
Theorem flow_gone_reported_refuted :
  ~ (forall l w, gone l = true -> read_gate (run (start 0 0 None None) l) w = RDown).
Proof.
  intros H. specialize (H [Gone B; Ctl A (SFlags (FLOWFDEFAULT + 512))] A eq_refl).
  vm_compute in H. discriminate.
Qed.
Print Assumptions flow_gone_reported_refuted.

(* It is true as long as nobody sets flags after the other has left. *)
Theorem flow_gone_reported_partial : forall q_a q_b r_a r_b l1 l2 v w,
  (forall u f, ~ In (Ctl u (SFlags f)) l2) ->
  read_gate (run (start q_a q_b r_a r_b) (l1 ++ Gone v :: l2)) w = RDown.
Proof.
  intros q_a q_b r_a r_b l1 l2 v w H. apply flow_down_reported.
  assert (G : forall l d, down (l ++ Gone v :: l2) d = down l2 true).
  { induction l as [| [u c | u | u] l IH]; intros d; try apply IH; [reflexivity |].
    destruct c; apply IH. }
  rewrite G. clear G. induction l2 as [| e l2 IH]; [reflexivity |].
  destruct e as [u c | u | u].
  - destruct c; try (apply IH; intros x y Hx; apply (H x y); right; exact Hx).
    exfalso. apply (H u f). left; reflexivity.
  - apply IH. intros x y Hx. apply (H x y). right; exact Hx.
  - apply IH. intros x y Hx. apply (H x y). right; exact Hx.
Qed.
Print Assumptions flow_gone_reported_partial.

(* --- who may write --- *)

Lemma mode_low f : (N.land f FLOWFACCMODE =? FLOWFRDONLY) = negb (N.testbit f 0 || N.testbit f 1).
Proof.
  unfold FLOWFACCMODE, FLOWFRDONLY.
  destruct (N.testbit f 0) eqn:E0; destruct (N.testbit f 1) eqn:E1; cbn.
  1-3: apply N.eqb_neq; intros H.
  - assert (T : N.testbit (N.land f 3) 0 = false) by (rewrite H; reflexivity).
    rewrite N.land_spec, E0 in T. discriminate.
  - assert (T : N.testbit (N.land f 3) 0 = false) by (rewrite H; reflexivity).
    rewrite N.land_spec, E0 in T. discriminate.
  - assert (T : N.testbit (N.land f 3) 1 = false) by (rewrite H; reflexivity).
    rewrite N.land_spec, E1 in T. discriminate.
  - apply N.eqb_eq. apply N.bits_inj. intros n. rewrite N.bits_0, N.land_spec.
    destruct n as [| [p | p |]]; cbn; rewrite ?E0, ?E1; auto.
    all: destruct p; cbn; apply andb_false_r.
Qed.

Lemma mode_of_spec f :
  (mode_of f = RdOnly <-> N.testbit f 0 = false /\ N.testbit f 1 = false) /\
  (mode_of f = WrOnly <-> N.testbit f 0 = true /\ N.testbit f 1 = false).
Proof.
  unfold mode_of.
  assert (H0 : N.testbit f 0 = N.testbit (f mod 4) 0) by (symmetry; apply (N.mod_pow2_bits_low f 2 0); reflexivity).
  assert (H1 : N.testbit f 1 = N.testbit (f mod 4) 1) by (symmetry; apply (N.mod_pow2_bits_low f 2 1); reflexivity).
  rewrite H0, H1. clear H0 H1.
  assert (L : f mod 4 < 4) by (apply N.mod_lt; discriminate).
  destruct (f mod 4) as [| [[p | p |] | [p | p |] |]]; cbn; try lia;
    split; split; intros H; try discriminate; auto; destruct H; discriminate.
Qed.

Lemma plain_bits q_a q_b r_a r_b l : Forall plain l ->
  let s := run (start q_a q_b r_a r_b) l in
  (forall n, n <> 1 -> N.testbit (a2b s) n = false) /\ (forall n, n <> 1 -> N.testbit (b2a s) n = false) /\
  forall w, N.testbit (last flags_set w l FLOWFDEFAULT) 0 = false.
Proof.
  induction l as [| e l IH] using rev_ind; intros HF; cbn zeta in *.
  - split; [| split]; intros; cbn; try apply N.bits_0; reflexivity.
  - apply Forall_app in HF as [HF He]. specialize (IH HF). destruct IH as (I1 & I2 & I3).
    inversion He as [| x y Hp _]; subst. rewrite run_snoc.
    set (s := run _ l) in *.
    destruct e as [v c | v | v]; [| | contradiction Hp].
    + assert (I3' : forall w, N.testbit (last flags_set w (l ++ [Ctl v c]) FLOWFDEFAULT) 0 = false).
      { intros w. rewrite last_snoc. destruct (same v w); [| apply I3].
        destruct c; cbn [flags_set]; try apply I3. rewrite low16 by reflexivity. exact Hp. }
      destruct c; try (match goal with |- context [step s (Ctl v ?c)] =>
        destruct (step_rings s v c) as [E1 E2]; [intros; discriminate | rewrite E1, E2; split; [| split]; assumption] end).
      pose proof (step_rings_flags s v f) as E. cbn zeta in E. cbn in Hp.
      split; [| split; [| exact I3']].
      * intros n Hn. destruct v; destruct E as [E1 E2]; [rewrite E2, set_flags_tx | rewrite E1, set_flags_rx];
          destruct n as [| [p | p |]]; rewrite ?I1, ?I2, ?Hp by discriminate; auto; congruence.
      * intros n Hn. destruct v; destruct E as [E1 E2]; [rewrite E1, set_flags_rx | rewrite E2, set_flags_tx];
          destruct n as [| [p | p |]]; rewrite ?I1, ?I2, ?Hp by discriminate; auto; congruence.
    + assert (Z : forall n, n <> 1 -> N.testbit ACL_FLOWDOWN n = false).
      { intros n Hn. change ACL_FLOWDOWN with (2 ^ 1). apply N.pow2_bits_false. congruence. }
      split; [| split]; [exact Z | exact Z |].
      intros w. rewrite last_snoc. apply I3.
Qed.

(* Who may write, in histories without write-only flows: a write meets an open
   ring exactly when the program may write, says EPERM on a read-only flow, and
   that the flow is down otherwise.  Missing: write-only flows (the three
   refutations below) and flows declared dead (write_vanishes_refuted). *)
Theorem write_access_partial : forall q_a q_b r_a r_b l w, Forall plain l ->
  let s := run (start q_a q_b r_a r_b) l in
  (write_gate s w = WOpen <-> may_write w l) /\
  (write_gate s w = WPerm <-> mode_after w l = RdOnly) /\
  (write_gate s w = WDown <-> mode_after w l <> RdOnly /\ down l false = true).
Proof.
  intros q_a q_b r_a r_b l w HF s.
  destruct (plain_bits q_a q_b r_a r_b l HF) as (P1 & P2 & P3). fold s in P1, P2.
  destruct (down_bits q_a q_b r_a r_b l) as [D1 D2]. fold s in D1, D2.
  destruct (settings q_a q_b r_a r_b l w) as (I1 & _). fold s in I1.
  assert (R : forall x, (forall n, n <> 1 -> N.testbit x n = false) -> N.testbit x 1 = down l false ->
    ring_gate x = if down l false then WDown else WOpen).
  { intros x Hx Hd. unfold ring_gate. change ACL_FLOWDOWN with 2. rewrite b1, Hd, negb_involutive.
    destruct (down l false) eqn:Ed.
    - destruct (x =? ACL_RDWR) eqn:E; [| reflexivity]. apply N.eqb_eq in E. subst x. discriminate.
    - replace x with 0; [reflexivity |]. apply N.bits_inj. intros n. rewrite N.bits_0.
      destruct (N.eq_dec n 1) as [-> | Hn]; [auto | symmetry; auto]. }
  assert (G : write_gate s w = if N.testbit (last flags_set w l FLOWFDEFAULT) 1
                               then (if down l false then WDown else WOpen) else WPerm).
  { unfold write_gate. change (match w with A => fa s | B => fb s end) with (flow_of s w).
    rewrite I1, mode_low, (P3 w). cbn [orb].
    destruct (N.testbit (last flags_set w l FLOWFDEFAULT) 1); cbn [negb]; [| reflexivity].
    destruct w; apply R; auto. }
  assert (MR : mode_after w l = RdOnly <-> N.testbit (last flags_set w l FLOWFDEFAULT) 1 = false).
  { unfold mode_after. rewrite (proj1 (mode_of_spec _)), (P3 w). tauto. }
  assert (MW : mode_after (other w) l <> WrOnly).
  { unfold mode_after. rewrite (proj2 (mode_of_spec _)), (P3 (other w)). intros [E _]; discriminate. }
  unfold may_write. rewrite G, MR.
  destruct (N.testbit (last flags_set w l FLOWFDEFAULT) 1); destruct (down l false);
    repeat split; intros; try discriminate; auto; try tauto; try (intuition congruence).
Qed.
Print Assumptions write_access_partial.

(* Making a flow write-only cannot be undone, *)
Theorem write_only_undone_refuted :
  ~ (forall l w, (forall v, ~ In (Silent v) l) -> may_write w l ->
       write_gate (run (start 0 0 None None) l) w = WOpen).
Proof.
  intros H. specialize (H [Ctl A (SFlags FLOWFWRONLY); Ctl A (SFlags FLOWFRDWR)] B).
  assert (E : write_gate (run (start 0 0 None None) [Ctl A (SFlags FLOWFWRONLY); Ctl A (SFlags FLOWFRDWR)]) B = WOpen).
  { apply H.
    - intros v [E | [E | []]]; discriminate.
    - vm_compute. repeat split; discriminate. }
  vm_compute in E. discriminate.
Qed.
Print Assumptions write_only_undone_refuted.

(* is lost when the other program sets its own flags, *)
Theorem write_only_kept_refuted :
  ~ (forall l, (forall v, ~ In (Silent v) l) -> mode_after A l = WrOnly ->
       write_gate (run (start 0 0 None None) l) B <> WOpen).
Proof.
  intros H. apply (H [Ctl A (SFlags FLOWFWRONLY); Ctl B (SFlags FLOWFDEFAULT)]).
  - intros v [E | [E | []]]; discriminate.
  - reflexivity.
  - reflexivity.
Qed.
Print Assumptions write_only_kept_refuted.

(* and asked for twice, closes the flow to the program that asked. *)
Theorem write_only_twice_refuted :
  ~ (forall l f, write_gate (run (start 0 0 None None) (l ++ [Ctl A (SFlags f); Ctl A (SFlags f)])) A
               = write_gate (run (start 0 0 None None) (l ++ [Ctl A (SFlags f)])) A).
Proof. intros H. specialize (H [] FLOWFWRONLY). vm_compute in H. discriminate. Qed.
Print Assumptions write_only_twice_refuted.

(* A write to a flow whose reader was declared dead, or to one's own flow after
   setting flags on it then, is reported as done and goes nowhere. *)
Theorem write_vanishes_refuted :
  ~ (forall l w, write_gate (run (start 0 0 None None) l) w <> WVanish).
Proof. intros H. apply (H [Silent A; Ctl A (SFlags FLOWFDEFAULT)] A). reflexivity. Qed.
Print Assumptions write_vanishes_refuted.

(* Without such a declaration no write vanishes, whatever the flags. *)
Theorem write_vanishes_partial : forall q_a q_b r_a r_b l w,
  (forall v, ~ In (Silent v) l) ->
  write_gate (run (start q_a q_b r_a r_b) l) w <> WVanish.
Proof.
  intros q_a q_b r_a r_b l w H.
  assert (G : (forall n, 2 <= n -> N.testbit (a2b (run (start q_a q_b r_a r_b) l)) n = false) /\
              (forall n, 2 <= n -> N.testbit (b2a (run (start q_a q_b r_a r_b) l)) n = false)).
  { induction l as [| e l IH] using rev_ind; [split; intros n _; exact (N.bits_0 n) |].
    rewrite run_snoc. set (s := run _ l) in *.
    destruct IH as [I1 I2]; [intros v Hv; apply (H v), in_or_app; auto |].
    destruct e as [v c | v | v].
    - destruct c; try (match goal with |- context [step s (Ctl v ?c)] =>
        destruct (step_rings s v c) as [E1 E2]; [intros; discriminate | rewrite E1, E2; split; assumption] end).
      pose proof (step_rings_flags s v f) as E. cbn zeta in E.
      assert (X : forall x, (forall n, 2 <= n -> N.testbit x n = false) ->
        (forall n, 2 <= n -> N.testbit (fst (set_flags f x)) n = false) /\
        (forall n, 2 <= n -> N.testbit (snd (set_flags f x)) n = false)).
      { intros x Hx. split; intros n Hn; [rewrite set_flags_rx | rewrite set_flags_tx];
          destruct n as [| [p | p |]]; try lia; apply Hx; lia. }
      destruct v; destruct E as [E1 E2]; rewrite E1, E2; [destruct (X _ I2) | destruct (X _ I1)]; auto.
    - assert (Z : forall n, 2 <= n -> N.testbit ACL_FLOWDOWN n = false).
      { intros n Hn. change ACL_FLOWDOWN with (2 ^ 1). apply N.pow2_bits_false. lia. }
      split; exact Z.
    - exfalso. apply (H v), in_or_app. right; left; reflexivity. }
  destruct G as [G1 G2].
  assert (R : forall x, (forall n, 2 <= n -> N.testbit x n = false) -> ring_gate x <> WVanish).
  { intros x Hx. unfold ring_gate. change ACL_FLOWDOWN with 2. change ACL_RDONLY with 1.
    rewrite b0, b1, !negb_involutive.
    destruct (N.testbit x 1) eqn:E1; [destruct (_ =? _); discriminate |].
    destruct (N.testbit x 0) eqn:E0; [destruct (_ =? _); discriminate |].
    replace x with 0; [discriminate |]. apply N.bits_inj. intros n. rewrite N.bits_0.
    destruct n as [| [p | p |]]; symmetry; first [exact E0 | exact E1 | apply Hx; lia]. }
  unfold write_gate. destruct (_ =? _); [discriminate |]. destruct w; apply R; auto.
Qed.
Print Assumptions write_vanishes_partial.

(* --- FRCT flags --- *)

(* Setting FRCT flags never changes whether the flow is reliable, and says
   EPERM on a flow without FRCT.  Missing: the other flags
   (frct_flags_refuted). *)
Theorem frct_flags_partial : forall q_a q_b r_a r_b l w,
  let s := run (start q_a q_b r_a r_b) l in
  match (match w with A => r_a | B => r_b end) with
  | None => snd (step s (Ctl w (FrctG true))) = EPerm /\ forall f, snd (step s (Ctl w (FrctS f))) = EPerm
  | Some c => exists v, snd (step s (Ctl w (FrctG true))) = Value v /\ N.testbit v 0 = N.testbit c 0
  end.
Proof.
  intros q_a q_b r_a r_b l w s.
  assert (G : match (match w with A => r_a | B => r_b end), frct (flow_of s w) with
              | None, None => True
              | Some c, Some v => N.testbit v 0 = N.testbit c 0
              | _, _ => False
              end).
  { subst s. induction l as [| e l IH] using rev_ind.
    - destruct w; cbn; [destruct r_a | destruct r_b]; auto.
    - rewrite run_snoc, step_flow. destruct e as [v c | v | v]; auto.
      destruct (same v w); auto. set (f := flow_of _ w) in *.
      destruct c; cbn; auto.
      + destruct (set_flags f0 0); cbn; auto.
      + destruct (match w with A => r_a | B => r_b end); destruct (frct f) eqn:Ef; cbn; rewrite ?Ef; auto.
        unfold frct_setflags, FRCTFRTX. rewrite !N.land_spec, N.lor_spec. cbn. rewrite orb_true_r, !andb_true_r. exact IH. }
  destruct w; cbn in G |- *.
  - destruct r_a; destruct (frct (fa s)); try contradiction; cbn; eauto.
  - destruct r_b; destruct (frct (fb s)); try contradiction; cbn; eauto.
Qed.
Print Assumptions frct_flags_partial.

(* The flags that can be set cannot be set: all are cleared instead. *)
Theorem frct_flags_refuted :
  ~ (forall l w c f, (match w with A => frct (fa (run (start 0 0 (Some c) (Some c)) l)) | B => frct (fb (run (start 0 0 (Some c) (Some c)) l)) end) = Some c ->
       snd (step (run (start 0 0 (Some c) (Some c)) (l ++ [Ctl w (FrctS f)])) (Ctl w (FrctG true)))
       = Value (N.lor (N.land c FRCTFRTX) (N.ldiff (f mod 65536) FRCTFRTX))).
Proof. intros H. specialize (H [] A 7 6 eq_refl). vm_compute in H. discriminate. Qed.
Print Assumptions frct_flags_refuted.

(* A null pointer is refused by every getter but the two queue lengths. *)
Theorem fccntl_null_refuted :
  ~ (forall s w c, In c [GFlags false; GRxqLen false] -> snd (step s (Ctl w c)) = EInval).
Proof.
  intros H. specialize (H (start 0 0 None None) A (GRxqLen false) ltac:(cbn; auto)). discriminate.
Qed.
Print Assumptions fccntl_null_refuted.

(* Non-vacuity: a plain history with read-only, down and up again. *)
Example plain_history :
  let l := [Ctl A (SFlags FLOWFRDONLY); Ctl B (SSndTimeo (Some 5%Z)); Ctl B (SFlags (FLOWFDEFAULT + FLOWFDOWN));
            Ctl A (SFlags FLOWFDEFAULT)] in
  Forall plain l /\ may_write A l /\ ~ may_write A (firstn 1 l) /\ down (firstn 3 l) false = true /\
  write_gate (run (start 0 0 None None) l) A = WOpen /\
  write_gate (run (start 0 0 None None) (firstn 3 l)) B = WDown /\
  write_gate (run (start 0 0 None None) (firstn 1 l)) A = WPerm /\
  snd (step (run (start 0 0 None None) l) (Ctl B (GSndTimeo true))) = Time 5%Z.
Proof.
  cbn zeta. split; [repeat constructor |].
  split; [vm_compute; repeat split; discriminate |].
  split; [intros [H _]; apply H; reflexivity |].
  repeat split; reflexivity.
Qed.
