(** All runs of a function of BootModel, and deciders for the statements of BootSpec. *)
From Coq Require Import List Arith Bool Lia NArith.
From Verif Require Import BootModel BootSpec.
Import ListNotations.

Lemma res_eqb_eq : forall a b, res_eqb a b = true <-> a = b.
Proof.
  intros a b. unfold res_eqb. rewrite andb_true_iff, N.eqb_eq, Nat.eqb_eq. split.
  - intros [H1 H2]. destruct a; destruct b; try discriminate H1; try reflexivity;
    cbn in H2; try (rewrite H2; reflexivity); destruct c; destruct c0; try discriminate H2; reflexivity.
  - intros ->. split; reflexivity.
Qed.
Lemma res_eqb_refl : forall a, res_eqb a a = true.
Proof. intros a. apply res_eqb_eq. reflexivity. Qed.
Lemma res_eqb_neq : forall a b, res_eqb a b = false <-> a <> b.
Proof.
  intros a b. split.
  - intros H E. apply res_eqb_eq in E. congruence.
  - intros H. destruct (res_eqb a b) eqn:E; auto. apply res_eqb_eq in E. contradiction.
Qed.
Lemma mem_In : forall r l, mem r l = true <-> In r l.
Proof.
  intros r l. unfold mem. rewrite existsb_exists. split.
  - intros [x [H E]]. apply res_eqb_eq in E. subst x. exact H.
  - intros H. exists r. split; [exact H|apply res_eqb_refl].
Qed.

Fixpoint paths {A} (p : prog A) : list (option A * list ev) :=
  match p with
  | Ret a => [(Some a, [])]
  | Abort => [(None, [])]
  | Do e q => map (fun x => (fst x, e :: snd x)) (paths q)
  | Try r k => map (fun x => (fst x, Got r :: snd x)) (paths (k true)) ++ paths (k false)
  | Ask k => paths (k true) ++ paths (k false)
  end.
Lemma run_paths : forall A (p : prog A) ans o es rest, run p ans = (o, es, rest) -> In (o, es) (paths p).
Proof.
  induction p as [a|r k IH|k IH|e q IH|]; intros ans o es rest H; cbn in H.
  - left. congruence.
  - cbn. apply in_or_app. destruct ans as [|[|] t].
    + left. destruct (run (k true) []) as [[a es'] rest'] eqn:E. inversion H; subst.
      apply in_map_iff. exists (o, es'). split; [reflexivity|]. exact (IH true _ _ _ _ E).
    + left. destruct (run (k true) t) as [[a es'] rest'] eqn:E. inversion H; subst.
      apply in_map_iff. exists (o, es'). split; [reflexivity|]. exact (IH true _ _ _ _ E).
    + right. exact (IH false _ _ _ _ H).
  - cbn. apply in_or_app. destruct ans as [|[|] t].
    + left. exact (IH true _ _ _ _ H).
    + left. exact (IH true _ _ _ _ H).
    + right. exact (IH false _ _ _ _ H).
  - cbn. destruct (run q ans) as [[a es'] rest'] eqn:E. inversion H; subst.
    apply in_map_iff. exists (o, es'). split; [reflexivity|]. exact (IH _ _ _ _ E).
  - left. congruence.
Qed.
Lemma paths_all : forall A (p : prog A) (f : option A * list ev -> bool),
  forallb f (paths p) = true -> forall ans o es rest, run p ans = (o, es, rest) -> f (o, es) = true.
Proof.
  intros A p f H ans o es rest R. rewrite forallb_forall in H. apply H. exact (run_paths _ _ _ _ _ _ R).
Qed.

(** Counting. *)
Lemma count_drop : forall r x h, count r (drop x h) = if res_eqb r x then pred (count r h) else count r h.
Proof.
  intros r x h. induction h as [|y t IH]; cbn.
  - destruct (res_eqb r x); reflexivity.
  - destruct (res_eqb x y) eqn:E.
    + apply res_eqb_eq in E. subst y. destruct (res_eqb r x); cbn; [reflexivity|reflexivity].
    + cbn. rewrite IH. destruct (res_eqb r x) eqn:F; [|reflexivity].
      apply res_eqb_eq in F. subst x. rewrite E. cbn. reflexivity.
Qed.
Lemma count_In : forall r h, In r h <-> 0 < count r h.
Proof.
  intros r h. induction h as [|x t IH]; cbn.
  - split; [contradiction|lia].
  - destruct (res_eqb r x) eqn:E; split; intros H.
    + lia.
    + left. symmetry. apply res_eqb_eq. exact E.
    + destruct H as [H|H]; [subst x; rewrite res_eqb_refl in E; discriminate|]. apply IH in H. lia.
    + right. apply IH. lia.
Qed.
Lemma count_app : forall r a b, count r (a ++ b) = count r a + count r b.
Proof. intros r a b. induction a as [|x t IH]; cbn; [reflexivity|]. rewrite IH. lia. Qed.
Lemma held_app : forall es h es', held h (es ++ es') = held (held h es) es'.
Proof. induction es as [|[r|r|r] t IH]; intros h es'; cbn; auto. Qed.

Definition inb {A} (eqb : A -> A -> bool) (x : A) (l : list A) : bool := existsb (eqb x) l.
Fixpoint rel_ok (l h : list res) (es : list ev) : bool :=
  match es with
  | [] => true
  | Got r :: t => rel_ok l (r :: h) t
  | Gone r :: t => (mem r l || mem r h) && rel_ok l (drop r h) t
  | Cancel _ :: t => rel_ok l h t
  end.
Lemma rel_ok_sound : forall l es h, rel_ok l h es = true -> released_once_but l h es.
Proof.
  induction es as [|e t IH]; intros h H pre r post E N.
  - destruct pre; discriminate E.
  - destruct pre as [|e' pre].
    + cbn in E. injection E as -> _. cbn in H. apply andb_true_iff in H. destruct H as [H _].
      apply orb_true_iff in H. destruct H as [H|H]; apply mem_In in H; [contradiction|exact H].
    + cbn in E. injection E as <- E. destruct e as [x|x|x]; cbn in H |- *.
      * exact (IH _ H pre r post E N).
      * apply andb_true_iff in H. exact (IH _ (proj2 H) pre r post E N).
      * exact (IH _ H pre r post E N).
Qed.
Fixpoint made_ok (h : list res) (es : list ev) : bool :=
  match es with
  | [] => true
  | Got r :: t => negb (mem r h) && made_ok (r :: h) t
  | Gone r :: t => made_ok (drop r h) t
  | Cancel _ :: t => made_ok h t
  end.
Lemma made_ok_sound : forall es h, made_ok h es = true -> made_once h es.
Proof.
  induction es as [|e t IH]; intros h H pre r post E.
  - destruct pre; discriminate E.
  - destruct pre as [|e' pre].
    + cbn in E. injection E as -> _. cbn in H. apply andb_true_iff in H. destruct H as [H _].
      cbn. intros C. apply mem_In in C. rewrite C in H. discriminate.
    + cbn in E. injection E as <- E. destruct e as [x|x|x]; cbn in H |- *.
      * apply andb_true_iff in H. exact (IH _ (proj2 H) pre r post E).
      * exact (IH _ H pre r post E).
      * exact (IH _ H pre r post E).
Qed.

Definition memp (p : res * res) (l : list (res * res)) : bool :=
  existsb (fun q => res_eqb (fst p) (fst q) && res_eqb (snd p) (snd q)) l.
Lemma memp_In : forall p l, memp p l = true -> In p l.
Proof.
  intros [a b] l H. apply existsb_exists in H. destruct H as [[c d] [H E]]. cbn in E.
  apply andb_true_iff in E. destruct E as [E1 E2]. apply res_eqb_eq in E1. apply res_eqb_eq in E2. subst. exact H.
Qed.
Lemma in_drop : forall r x h, In r (drop x h) -> In r h.
Proof. intros r x h H. apply count_In. apply count_In in H. rewrite count_drop in H. destruct (res_eqb r x); lia. Qed.
Lemma in_drop_other : forall r x h, r <> x -> In r h -> In r (drop x h).
Proof.
  intros r x h N H. apply count_In. apply count_In in H. rewrite count_drop.
  apply res_eqb_neq in N. rewrite N. exact H.
Qed.

Section Complete.
Variable nd : res -> list res.
Variable l : list (res * res).
Definition whole (h : list res) : Prop := forall r u, In r h -> In u (nd r) -> ~ In (r, u) l -> In u h.
Fixpoint comp_ok (h : list res) (es : list ev) : bool :=
  match es with
  | [] => true
  | Got r :: t => forallb (fun u => memp (r, u) l || mem u h) (nd r) && comp_ok (r :: h) t
  | Gone r :: t =>
      let h' := drop r h in
      (mem r h' || forallb (fun x => forallb (fun u => negb (res_eqb u r) || memp (x, u) l) (nd x)) h') && comp_ok h' t
  | Cancel _ :: t => comp_ok h t
  end.
Lemma comp_ok_sound : forall es h, whole h -> comp_ok h es = true -> complete_but nd l h es.
Proof.
  induction es as [|e t IH]; intros h W H pre post E r u I1 I2 N.
  - destruct pre; [|discriminate E]. exact (W r u I1 I2 N).
  - destruct pre as [|e' pre]; [exact (W r u I1 I2 N)|].
    cbn in E. injection E as <- E. destruct e as [x|x|x]; cbn in H, I1 |- *.
    + apply andb_true_iff in H. destruct H as [H1 H2].
      refine (IH _ _ H2 pre post E r u I1 I2 N).
      intros a b [J|J] K N'.
      * subst a. rewrite forallb_forall in H1. specialize (H1 b K). apply orb_true_iff in H1.
        destruct H1 as [H1|H1]; [apply memp_In in H1; contradiction|]. right. apply mem_In. exact H1.
      * right. exact (W a b J K N').
    + apply andb_true_iff in H. destruct H as [H1 H2].
      refine (IH _ _ H2 pre post E r u I1 I2 N).
      intros a b J K N'.
      destruct (res_eqb b x) eqn:B.
      * apply res_eqb_eq in B. subst b. apply orb_true_iff in H1. destruct H1 as [H1|H1]; [apply mem_In; exact H1|].
        rewrite forallb_forall in H1. specialize (H1 a J). rewrite forallb_forall in H1. specialize (H1 x K).
        rewrite res_eqb_refl in H1. cbn in H1. apply memp_In in H1. contradiction.
      * apply in_drop_other; [apply res_eqb_neq; exact B|]. exact (W a b (in_drop _ _ _ J) K N').
    + exact (IH _ W H pre post E r u I1 I2 N).
Qed.
End Complete.
Lemma whole_nil : forall nd l, whole nd l [].
Proof. intros nd l r u H. contradiction. Qed.

Fixpoint told_ok (c : list res) (es : list ev) : bool :=
  match es with
  | [] => true
  | Got r :: t => told_ok (filter (fun x => negb (res_eqb x r)) c) t
  | Gone r :: t => (negb (is_thread r) || mem r c) && told_ok c t
  | Cancel r :: t => told_ok (r :: c) t
  end.
Lemma told_ok_sound : forall es, told_ok [] es = true -> told es.
Proof.
  assert (G : forall es c h, told_ok c es = true ->
    (forall r, In r c -> exists p q, h = p ++ Cancel r :: q /\ ~ In (Got r) q) ->
    forall pre r post, es = pre ++ Gone r :: post -> is_thread r = true ->
    exists p q, h ++ pre = p ++ Cancel r :: q /\ ~ In (Got r) q).
  { induction es as [|e t IH]; intros c h H C pre r post E T.
    - destruct pre; discriminate E.
    - destruct pre as [|e' pre].
      + cbn in E. injection E as -> _. cbn in H. rewrite T in H. cbn in H.
        apply andb_true_iff in H. destruct H as [H _]. apply mem_In in H.
        rewrite app_nil_r. exact (C r H).
      + cbn in E. injection E as <- E.
        replace (h ++ e :: pre) with ((h ++ [e]) ++ pre) by (rewrite <- app_assoc; reflexivity).
        destruct e as [x|x|x]; cbn in H.
        * refine (IH _ (h ++ [Got x]) H _ pre r post E T).
          intros y Y. apply filter_In in Y. destruct Y as [Y1 Y2].
          destruct (C y Y1) as [p [q [-> Q]]].
          exists p, (q ++ [Got x]). split; [rewrite <- app_assoc; reflexivity|].
          intros K. apply in_app_or in K. destruct K as [K|[K|[]]]; [exact (Q K)|].
          injection K as ->. rewrite res_eqb_refl in Y2. discriminate.
        * apply andb_true_iff in H. destruct H as [_ H]. refine (IH _ (h ++ [Gone x]) H _ pre r post E T).
          intros y Y. destruct (C y Y) as [p [q [-> Q]]].
          exists p, (q ++ [Gone x]). split; [rewrite <- app_assoc; reflexivity|].
          intros K. apply in_app_or in K. destruct K as [K|[K|[]]]; [exact (Q K)|discriminate K].
        * refine (IH _ (h ++ [Cancel x]) H _ pre r post E T).
          intros y [Y|Y].
          -- subst y. exists h, []. split; [reflexivity|intros []].
          -- destruct (C y Y) as [p [q [-> Q]]].
             exists p, (q ++ [Cancel x]). split; [rewrite <- app_assoc; reflexivity|].
             intros K. apply in_app_or in K. destruct K as [K|[K|[]]]; [exact (Q K)|discriminate K]. }
  intros es H pre r post E T.
  exact (G es [] [] H (fun r F => match F with end) pre r post E T).
Qed.

Definition same_ok (l a b : list res) : bool :=
  forallb (fun r => mem r l || Nat.eqb (count r a) (count r b)) (a ++ b).
Lemma same_ok_sound : forall l a b, same_ok l a b = true -> same_but l a b.
Proof.
  intros l a b H r N. unfold same_ok in H. rewrite forallb_forall in H.
  destruct (mem r (a ++ b)) eqn:E.
  - apply mem_In in E. specialize (H r E). apply orb_true_iff in H.
    destruct H as [H|H]; [apply mem_In in H; contradiction|]. apply Nat.eqb_eq. exact H.
  - assert (Z : count r (a ++ b) = 0).
    { destruct (Nat.eq_0_gt_0_cases (count r (a ++ b))) as [Z|Z]; [exact Z|].
      apply count_In in Z. apply mem_In in Z. congruence. }
    rewrite count_app in Z. lia.
Qed.
Lemma same_but_nil : forall a b, same_but [] a b -> same a b.
Proof. intros a b H r. apply H. intros []. Qed.

(** What is held after calls that release only what they made. *)
Lemma held_delta : forall l es h r, ~ In r l -> rel_ok l h es = true ->
  forall h', count r (held (h ++ h') es) = count r (held h es) + count r h'.
Proof.
  intros l es. induction es as [|e t IH]; intros h r N H h'.
  - cbn. apply count_app.
  - destruct e as [x|x|x]; cbn in H |- *.
    + exact (IH (x :: h) r N H h').
    + apply andb_true_iff in H. destruct H as [H1 H2].
      assert (G : forall h1 h2, (forall y, count y h1 = count y h2) -> forall t, forall y, count y (held h1 t) = count y (held h2 t)).
      { clear. intros h1 h2 E t. revert h1 h2 E. induction t as [|[z|z|z] t IH]; intros h1 h2 E y; cbn; auto.
        - apply IH. intros w. cbn. rewrite E. reflexivity.
        - apply IH. intros w. rewrite !count_drop, E. reflexivity. }
      destruct (mem x h) eqn:M.
      * rewrite <- (IH (drop x h) r N H2 h'). apply G. intros y. rewrite count_app, !count_drop, count_app.
        apply mem_In in M. apply count_In in M. destruct (res_eqb y x) eqn:F; [|reflexivity].
        apply res_eqb_eq in F. subst y. lia.
      * apply orb_true_iff in H1. destruct H1 as [H1|H1]; [|congruence].
        apply mem_In in H1.
        assert (D : forall y, y <> x -> count y (drop x (h ++ h')) = count y (drop x h ++ h')).
        { intros y Y. rewrite count_app, !count_drop, count_app. apply res_eqb_neq in Y. rewrite Y. reflexivity. }
        rewrite <- (IH (drop x h) r N H2 h').
        assert (Nx : r <> x) by (intros ->; contradiction).
        assert (G2 : forall h1 h2, count r h1 = count r h2 -> forall t, count r (held h1 t) = count r (held h2 t)).
        { clear. intros h1 h2 E t. revert h1 h2 E. induction t as [|[z|z|z] t IH]; intros h1 h2 E; cbn; auto.
          - apply IH. cbn. rewrite E. reflexivity.
          - apply IH. rewrite !count_drop, E. reflexivity. }
        apply G2. exact (D r Nx).
    + exact (IH h r N H h').
Qed.
