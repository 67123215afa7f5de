(** Theorems about the life of an IPCP (C102). *)
From Coq Require Import List Arith Lia Bool.
From Verif Require Import IpcpCmdModel LifeModel LifeSpec.
Import ListNotations.

Lemma run_snoc : forall es e s, run (es ++ [e]) s = match run es s with Some s' => step e s' | None => None end.
Proof.
  induction es as [|a es IH]; intros e s; cbn [app run]; [destruct (step e s); reflexivity|].
  destruct (step a s); [apply IH|reflexivity].
Qed.
Lemma run_ind : forall P : sys -> Prop, P start -> (forall e s s', P s -> step e s = Some s' -> P s') ->
  forall es s, run es start = Some s -> P s.
Proof.
  intros P B H es. induction es as [|e es IH] using rev_ind; intros s R; [injection R as <-; exact B|].
  rewrite run_snoc in R. destruct (run es start) as [s'|]; [|discriminate R]. exact (H e s' s (IH s' eq_refl) R).
Qed.
Ltac cases H := unfold step, work, go, goto, put in H;
  repeat match type of H with
  | match ?x with _ => _ end = _ => destruct x eqn:?
  | (if ?x then _ else _) = _ => destruct x eqn:?
  end; try discriminate H; injection H as <-; cbn [st running setting succeeded at_] in *.
Lemma is_oper_true : forall s, is_oper s = true -> s = SOper. Proof. intros [| | |] H; try discriminate H; reflexivity. Qed.
Lemma is_init_true : forall s, is_init s = true -> s = SInit. Proof. intros [| | |] H; try discriminate H; reflexivity. Qed.

(** What holds in every execution. *)
Record inv (s : sys) : Prop := {
  i_set : setting s <= succeeded s;
  i_oper : st s = SOper -> 1 <= succeeded s;
  i_shut : st s = SShut -> 1 <= succeeded s;
  i_will : at_ s = SetsShut -> 1 <= succeeded s;
  i_wait : at_ s = Wait -> st s = SInit \/ st s = SOper;
  i_loop2 : at_ s = Loop2 -> st s <> SNull;
  i_end : at_ s = Ended true -> 1 <= succeeded s
}.
Lemma inv_step : forall e s s', inv s -> step e s = Some s' -> inv s'.
Proof.
  intros e s s' [A B C D E F G] H. destruct s as [t r k n m]. cbn [st running setting succeeded at_] in *. destruct e as [w| | |].
  - destruct w; cbn [step work st running setting succeeded at_] in H;
      try (destruct (is_init t) eqn:I; [apply is_init_true in I|discriminate H]);
      try (destruct r as [|r]; [discriminate H|]); try (destruct k as [|k]; [discriminate H|]); injection H as <-;
      constructor; cbn [st running setting succeeded at_]; try lia; try congruence; intros; try (specialize (B ltac:(congruence)); lia);
      try (specialize (C ltac:(congruence)); lia); try (specialize (D ltac:(congruence)); lia); try (specialize (G ltac:(congruence)); lia);
      try (exact (E ltac:(congruence))); try (exact (F ltac:(congruence))); try (left; congruence); try (right; congruence); try congruence.
  - destruct m; unfold step, go, goto, put in H; cbn [st running setting succeeded at_] in H; try discriminate H; injection H as <-;
      constructor; cbn [st running setting succeeded at_ is_init is_oper] in *; try lia; try congruence; try assumption;
      destruct t; cbn [is_init is_oper]; try congruence; try (intros; left; reflexivity); try (intros; right; reflexivity); intros;
      try (apply B; reflexivity); try (apply C; reflexivity); try (apply D; reflexivity); try congruence;
      try (elim (F eq_refl); reflexivity).
  - destruct m; unfold step, goto in H; cbn [st running setting succeeded at_] in H; try discriminate H; injection H as <-; constructor; cbn [goto st running setting succeeded at_] in *; try lia; try congruence; assumption.
  - destruct m; unfold step, goto in H; cbn [st running setting succeeded at_] in H; try discriminate H; injection H as <-; constructor; cbn [goto st running setting succeeded at_] in *; try lia; try congruence; assumption.
Qed.
Lemma inv_run : forall es s, run es start = Some s -> inv s.
Proof.
  apply run_ind; [|exact inv_step]. constructor; cbn; intros; try discriminate; try lia.
Qed.

(** An IPCP is operational only after a bootstrap or enrolment that succeeded ... *)
Theorem life_operational : forall es s, run es start = Some s -> st s = SOper -> 1 <= succeeded s.
Proof. intros es s R. exact (i_oper s (inv_run es s R)). Qed.
Print Assumptions life_operational.
(** ... and what was not started is not stopped. *)
Theorem life_stops_started : forall es s, run es start = Some s -> at_ s = Ended true -> 1 <= succeeded s.
Proof. intros es s R. exact (i_end s (inv_run es s R)). Qed.
Print Assumptions life_stops_started.
(** While it waits for the signal, it is not stopped. *)
Theorem life_waits : forall es s, run es start = Some s -> at_ s = Wait -> st s = SInit \/ st s = SOper.
Proof. intros es s R. exact (i_wait s (inv_run es s R)). Qed.
Print Assumptions life_waits.

(** * One at a time *)
Record inv1 (s : sys) : Prop := {
  j_one : running s + setting s <= 1;
  j_succ : succeeded s <= 1;
  j_run : succeeded s = 1 -> running s = 0;
  j_none : succeeded s = 0 -> setting s = 0 /\ st s <> SOper;
  j_init : succeeded s = 1 -> setting s = 0 -> st s <> SInit
}.
Lemma one_run : forall es s, one_by_one es s -> run es start = Some s.
Proof. induction 1 as [|es s e s' _ IH H _]; [reflexivity|]. rewrite run_snoc, IH. exact H. Qed.
Lemma inv1_all : forall es s, one_by_one es s -> inv1 s.
Proof.
  induction 1 as [|es s e s' O IH H L]; [constructor; cbn; intros; try lia; split; [reflexivity|discriminate]|].
  pose proof (inv_run _ _ (one_run _ _ O)) as V. destruct IH as [A B C D E]. destruct V as [VA VB VC VD VE VF VG].
  destruct s as [t r k n m]. cbn [st running setting succeeded at_] in *. destruct e as [w| | |].
  - destruct w; cbn [step work st running setting succeeded at_] in H;
      try (destruct (is_init t) eqn:I; [apply is_init_true in I|discriminate H]);
      try (destruct r as [|r]; [discriminate H|]); try (destruct k as [|k]; [discriminate H|]); injection H as <-;
      cbn [st running setting succeeded at_] in *; constructor; cbn [st running setting succeeded at_]; try lia; try congruence; intros; subst;
      try (split; [lia|congruence]); try (destruct (D ltac:(lia)) as [D1 D2]; split; [lia|congruence]); try congruence; try (apply E; lia);
      try (assert (n = 0 \/ n = 1) as [N|N] by lia; [destruct (D N); lia|pose proof (C N); try lia; exfalso; apply (E N); [lia|reflexivity]]);
      try (exfalso; apply (E eq_refl); [lia|reflexivity]).
  - destruct m; unfold step, go, goto, put in H; cbn [st running setting succeeded at_] in H; try discriminate H; injection H as <-;
      cbn [st running setting succeeded at_] in *; constructor; cbn [st running setting succeeded at_]; try lia; try assumption; try congruence;
      try (intros N; split; [exact (proj1 (D N))|discriminate]); try discriminate.
  - destruct m; unfold step, goto in H; cbn [st running setting succeeded at_] in H; try discriminate H; injection H as <-; constructor; cbn [goto st running setting succeeded at_] in *; try lia; assumption.
  - destruct m; unfold step, goto in H; cbn [st running setting succeeded at_] in H; try discriminate H; injection H as <-; constructor; cbn [goto st running setting succeeded at_] in *; try lia; assumption.
Qed.
Fixpoint obo (es : list event) (s : sys) : option sys :=
  match es with
  | [] => Some s
  | e :: es => match step e s with Some s' => if Nat.leb (running s' + setting s') 1 then obo es s' else None | None => None end
  end.
Lemma obo_ok : forall es pre s s', one_by_one pre s -> obo es s = Some s' -> one_by_one (pre ++ es) s'.
Proof.
  induction es as [|e es IH]; intros pre s s' O H; cbn [obo] in H; [injection H as <-; rewrite app_nil_r; exact O|].
  destruct (step e s) as [x|] eqn:E; [|discriminate H]. destruct (Nat.leb_spec (running x + setting x) 1) as [L|L]; [|discriminate H].
  replace (pre ++ e :: es) with ((pre ++ [e]) ++ es) by (rewrite <- app_assoc; reflexivity). apply (IH _ x); [|exact H]. exact (Next _ _ _ _ O E L).
Qed.
(** At most one bootstrap or enrolment succeeds, if they come one by one ... *)
Theorem life_once_partial : forall es s, one_by_one es s -> succeeded s <= 1.
Proof. intros es s O. exact (j_succ s (inv1_all es s O)). Qed.
Print Assumptions life_once_partial.
(** ... but two that come together both do. *)
Theorem life_once_refuted : ~ (forall es s, run es start = Some s -> succeeded s <= 1).
Proof.
  intros H. pose proof (H [Worker Check; Worker Check; Worker OpSucceeds; Worker OpSucceeds] _ eq_refl) as L. cbn in L. lia.
Qed.
Print Assumptions life_once_refuted.

(** * The signal to stop *)
(** If no command is executed meanwhile, an IPCP that is told to stop ends, and
    it stops its components exactly if it is operational. *)
Theorem life_stop : forall es s s', run es start = Some s -> step Stop s = Some s' ->
  exists n z, n <= 7 /\ alone n s' = Some z /\
    at_ z = Ended (match st s with SOper => true | _ => false end).
Proof.
  intros es s s' R H. pose proof (i_wait s (inv_run es s R)) as W. destruct s as [t r k n m]. cbn [st running setting succeeded at_] in *.
  destruct m; cbn [step at_] in H; try discriminate H. injection H as <-. destruct (W eq_refl) as [-> | ->].
  - exists 5. eexists. split; [lia|]. split; reflexivity.
  - exists 6. eexists. split; [lia|]. split; reflexivity.
Qed.
Print Assumptions life_stop.
(** In particular, if the commands came one by one and none is left: it stops
    its components exactly if it was made part of a layer. *)
Theorem life_clean_stop_partial : forall es s s', one_by_one es s -> idle s -> step Stop s = Some s' ->
  exists n z, n <= 7 /\ alone n s' = Some z /\ at_ z = Ended (Nat.eqb (succeeded s) 1).
Proof.
  intros es s s' O [I1 I2] H. destruct (life_stop _ _ _ (one_run _ _ O) H) as (n & z & L & A & E). exists n, z. split; [exact L|]. split; [exact A|].
  rewrite E. f_equal. destruct (inv1_all _ _ O) as [A1 A2 A3 A4 A5].
  destruct (life_waits _ _ (one_run _ _ O)) as [W|W]; [destruct s as [t r k q m]; destruct m; try discriminate H; reflexivity| |]; rewrite W.
  - destruct (Nat.eqb_spec (succeeded s) 1) as [N|N]; [elim (A5 N I2 W)|reflexivity].
  - destruct (Nat.eqb_spec (succeeded s) 1) as [N|N]; [reflexivity|]. assert (Z : succeeded s = 0) by lia. elim (proj2 (A4 Z) W).
Qed.
Print Assumptions life_clean_stop_partial.

(** With one command in execution, the signal can be lost: everything has been
    done, and the IPCP is operational and waits for a signal. *)
Definition lost : list event :=
  [Main; Main; Worker Check; Stop; Main; Main; Main; Worker OpSucceeds; Worker SetOper; Main; Main].
Theorem life_stop_refuted :
  ~ (forall es s, one_by_one es s -> In Stop es -> idle s -> at_ s <> Wait).
Proof.
  intros H. assert (O : exists s, one_by_one lost s /\ idle s /\ at_ s = Wait).
  { eexists. split; [|split].
    - apply (obo_ok lost [] start); [exact First|reflexivity].
    - split; reflexivity.
    - reflexivity. }
  destruct O as (s & O & I & W). apply (H lost s O); [do 3 right; left; reflexivity|exact I|exact W].
Qed.
Print Assumptions life_stop_refuted.
(** Or the IPCP ends with components that were started and not stopped. *)
Definition left_behind : list event :=
  [Main; Main; Worker Check; Stop; Main; Main; Main; Main; Worker OpSucceeds; Main].
Theorem life_stopped_refuted :
  ~ (forall es s b, one_by_one es s -> at_ s = Ended b -> 1 <= succeeded s -> b = true).
Proof.
  intros H. assert (O : exists s, one_by_one left_behind s /\ at_ s = Ended false /\ 1 <= succeeded s).
  { eexists. split; [|split].
    - apply (obo_ok left_behind [] start); [exact First|reflexivity].
    - reflexivity.
    - cbn. lia. }
  destruct O as (s & O & E & S). discriminate (H left_behind s false O E S).
Qed.
Print Assumptions life_stopped_refuted.
(** A failing operation that sets the state back undoes the signal as well. *)
Definition undone : list event :=
  [Main; Main; Worker Check; Stop; Main; Main; Main; Worker Reset; Worker OpFails; Main; Main].
Theorem life_reset_undoes : exists s, run undone start = Some s /\ idle s /\ at_ s = Wait /\ succeeded s = 0 /\ st s = SInit.
Proof. eexists. split; [reflexivity|]. split; [split; reflexivity|]. split; [reflexivity|]. split; reflexivity. Qed.
Print Assumptions life_reset_undoes.

(** * A case *)
Example life_case : exists s, one_by_one [Main; Main; Worker Check; Worker Reset; Worker OpSucceeds; Worker SetOper] s /\ idle s /\ succeeded s = 1 /\ exists s', step Stop s = Some s'.
Proof.
  eexists. split; [apply (obo_ok [Main; Main; Worker Check; Worker Reset; Worker OpSucceeds; Worker SetOper] [] start); [exact First|reflexivity]|].
  split; [split; reflexivity|split; [reflexivity|eexists; reflexivity]].
Qed.

(** A signal that is not of the IRMd changes nothing: the IPCP waits again. *)
Theorem life_other s s' : step Other s = Some s' -> st s = SInit \/ st s = SOper ->
  run [Main; Main] s' = Some s.
Proof.
  intros H S. cbn in H. destruct s as [x r n k a]. cbn in H, S. destruct a; try discriminate. injection H as <-.
  destruct S as [-> | ->]; reflexivity.
Qed.
Print Assumptions life_other.
Example life_other_met : exists es s s', run es start = Some s /\ step Other s = Some s' /\ st s = SOper.
Proof.
  eexists [Worker Check; Worker OpSucceeds; Worker SetOper; Main; Main], _, _.
  split; [reflexivity|]. split; reflexivity.
Qed.
