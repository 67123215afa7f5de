(** C104: the tree of the RIB. *)
From Coq Require Import List Bool NArith ZArith Lia.
From Verif Require Import RibModel RibSpec.
Import ListNotations.
Local Open Scope N_scope.

Lemma streq_iff a b : streq a b = true <-> a = b.
Proof.
  revert b; induction a as [|x a IH]; intros [|y b]; cbn; split; intros H; try discriminate; auto.
  - apply andb_prop in H as [E H]. apply N.eqb_eq in E. apply IH in H. now subst.
  - injection H as <- <-. rewrite N.eqb_refl. now apply IH.
Qed.
Lemma streq_refl a : streq a a = true.
Proof. now apply streq_iff. Qed.
Lemma streq_ne a b : a <> b -> streq a b = false.
Proof. intros H. destruct (streq a b) eqn:E; [|reflexivity]. apply streq_iff in E. elim (H E). Qed.
Lemma strlt_iff a b : strlt a b = true <-> before_in a b.
Proof.
  revert b; induction a as [|x a IH]; intros [|y b]; cbn; split; intros H; try discriminate; try (inversion H; fail); auto.
  - constructor.
  - destruct (N.eqb_spec x y) as [E|E].
    + subst. apply BiTl, IH, H.
    + apply BiHd. now apply N.ltb_lt.
  - inversion H as [|? ? ? ? L|? ? ? L]; subst.
    + destruct (N.eqb_spec x y) as [E|E]; [lia|]. now apply N.ltb_lt.
    + rewrite N.eqb_refl. now apply IH.
Qed.
Lemma before_trans a b c : before_in a b -> before_in b c -> before_in a c.
Proof.
  intros H; revert c; induction H as [y b|x a y b L|x a b H IH]; intros c K; inversion K; subst;
    first [now constructor | apply BiHd; lia | apply BiTl; auto].
Qed.
Lemma before_total a b : a <> b -> strlt a b = false -> before_in b a.
Proof.
  revert b; induction a as [|x a IH]; intros [|y b] N H; cbn in H; try discriminate.
  - now elim N.
  - constructor.
  - destruct (N.eqb_spec x y) as [E|E].
    + subst. apply BiTl, IH; [congruence|exact H].
    + apply BiHd. apply N.ltb_ge in H. lia.
Qed.
Lemma before_irr a : ~ before_in a a.
Proof. induction a as [|x a IH]; intros H; inversion H; subst; [lia|auto]. Qed.

(** * The list *)
Definition lookup (l : rib) (p : str) : option ops := look l p.
Lemma put_in l p o m : put l p o = Some m -> forall q, In q (map fst m) <-> q = p \/ In q (map fst l).
Proof.
  revert m; induction l as [|[q x] l IH]; intros m H r; cbn in H.
  - injection H as <-. cbn. intuition.
  - destruct (streq q p); [discriminate|].
    destruct (strlt p q).
    + injection H as <-. cbn. intuition.
    + destruct (put l p o) as [m'|] eqn:E; [|discriminate]. injection H as <-. cbn.
      specialize (IH _ eq_refl r). intuition.
Qed.
Lemma put_asc l p o m : ascending (map fst l) -> put l p o = Some m -> ascending (map fst m).
Proof.
  revert m; induction l as [|[q x] l IH]; intros m A H; cbn in H.
  - injection H as <-. cbn. constructor; [intros b []|constructor].
  - destruct (streq q p) eqn:Eq; [discriminate|].
    destruct (strlt p q) eqn:L.
    + injection H as <-. cbn in *. apply strlt_iff in L. constructor; [|exact A].
      inversion A as [|? ? B C]; subst.
      intros b [<-|I]; [exact L|]. exact (before_trans _ _ _ L (B b I)).
    + destruct (put l p o) as [m'|] eqn:E; [|discriminate]. injection H as <-. cbn in *.
      inversion A as [|? ? B C]; subst. constructor; [|now apply IH].
      intros b I. apply (put_in _ _ _ _ E) in I. destruct I as [I|I]; [subst|now apply B].
      apply before_total; [|exact L].
      intros ->. rewrite streq_refl in Eq. discriminate.
Qed.
Lemma look_in l p : look l p <> None <-> In p (map fst l).
Proof.
  induction l as [|[q x] l IH]; cbn; [intuition|].
  destruct (streq p q) eqn:E.
  - apply streq_iff in E. subst. intuition discriminate.
  - split; [intros H; right; now apply IH|]. intros [<-|I]; [now rewrite streq_refl in E|now apply IH].
Qed.
(** A name is missed by [put] only if it is in the list, because of the order. *)
Lemma put_none l p o : ascending (map fst l) -> (put l p o = None <-> In p (map fst l)).
Proof.
  induction l as [|[q x] l IH]; intros A; cbn [put map fst In]; [intuition discriminate|].
  inversion A as [|? ? B C]; subst.
  destruct (streq q p) eqn:E.
  - apply streq_iff in E. intuition.
  - assert (N : q <> p) by (intros ->; now rewrite streq_refl in E).
    destruct (strlt p q) eqn:L.
    + split; [discriminate|]. intros [<-|I]; [now elim N|].
      apply strlt_iff in L. elim (before_irr p). exact (before_trans _ _ _ L (B p I)).
    + specialize (IH C). destruct (put l p o) as [m|].
      * split; [discriminate|]. intros [Hq|I]; [now elim N|]. apply IH in I. discriminate.
      * split; [|reflexivity]. intros _. right. now apply IH.
Qed.
Lemma put_look l p o m q : ascending (map fst l) -> put l p o = Some m ->
  look m q = if str_dec p q then Some o else look l q.
Proof.
  revert m; induction l as [|[r x] l IH]; intros m A H; cbn in H.
  - injection H as <-. cbn. destruct (str_dec p q) as [E|E].
    + subst. now rewrite streq_refl.
    + rewrite streq_ne by congruence. reflexivity.
  - destruct (streq r p) eqn:Er; [discriminate|].
    assert (N : r <> p) by (intros ->; now rewrite streq_refl in Er).
    destruct (strlt p r).
    + injection H as <-. cbn. destruct (str_dec p q) as [E|E].
      * subst. now rewrite streq_refl.
      * rewrite (streq_ne q p) by congruence. reflexivity.
    + destruct (put l p o) as [m'|] eqn:Ep; [|discriminate]. injection H as <-. cbn in *.
      inversion A; subst. rewrite (IH _ H2 eq_refl).
      destruct (str_dec p q) as [E|E]; [subst|reflexivity].
      now rewrite (streq_ne q r) by congruence.
Qed.
Lemma drop_in l p q : In q (map fst (drop l p)) -> In q (map fst l).
Proof.
  induction l as [|[r x] l IH]; cbn; [auto|]. destruct (streq r p); cbn; intuition.
Qed.
Lemma drop_asc l p : ascending (map fst l) -> ascending (map fst (drop l p)).
Proof.
  induction l as [|[r x] l IH]; cbn; intros A; [constructor|].
  inversion A as [|? ? B C]; subst. destruct (streq r p); [exact C|]. cbn. constructor; [|now apply IH].
  intros b I. apply B, (drop_in _ p), I.
Qed.
Lemma drop_look l p q : ascending (map fst l) -> look (drop l p) q = if str_dec p q then None else look l q.
Proof.
  induction l as [|[r x] l IH]; cbn; intros A; [now destruct (str_dec p q)|].
  inversion A as [|? ? B C]; subst.
  destruct (streq r p) eqn:E.
  - apply streq_iff in E. subst. destruct (str_dec p q) as [E|E].
    + subst. destruct (look l q) eqn:L; [|reflexivity].
      assert (I : In q (map fst l)) by (apply look_in; congruence).
      elim (before_irr q). now apply B.
    + now rewrite (streq_ne q p) by congruence.
  - cbn. rewrite IH by assumption. destruct (str_dec p q) as [E'|E']; [|reflexivity].
    subst. rewrite streq_ne; [reflexivity|]. intros ->. now rewrite streq_refl in E.
Qed.

Lemma tree_inv h : ascending (map fst (tree true h)) /\ forall q, look (tree true h) q = has h q.
Proof.
  induction h as [|e h [A L]]; [split; [constructor|reflexivity]|].
  destruct e as [p o|p]; cbn [tree has].
  - unfold rib_reg. cbn [negb].
    destruct (put (tree true h) p o) as [m|] eqn:E; cbn [snd].
    + assert (Np : has h p = None).
      { rewrite <- L. destruct (look (tree true h) p) eqn:K; [|reflexivity].
        assert (I : In p (map fst (tree true h))) by (apply look_in; congruence).
        apply (put_none _ _ o A) in I. congruence. }
      destruct (Nat.ltb_spec RIB_PATH_LEN (length p)) as [G|G]; cbn [snd].
      * split; [exact A|]. intros q. destruct (str_dec p q) as [Eq|Eq]; [|apply L].
        subst. rewrite Np. unfold RIB_PATH_LEN in G.
        destruct (Nat.leb_spec (length q) 300); [lia|]. now rewrite L.
      * split; [exact (put_asc _ _ _ _ A E)|]. intros q. rewrite (put_look _ _ _ _ q A E).
        destruct (str_dec p q) as [Eq|Eq]; [|apply L].
        subst. rewrite Np. unfold RIB_PATH_LEN in G.
        destruct (Nat.leb_spec (length q) 300); [reflexivity|lia].
    + split; [exact A|]. intros q. rewrite L. destruct (str_dec p q) as [Eq|Eq]; [|reflexivity].
      subst. assert (I : In q (map fst (tree true h))) by now apply (put_none _ _ o A).
      apply look_in in I. rewrite L in I. destruct (has h q); [reflexivity|now elim I].
  - unfold rib_unreg. cbn [negb]. split; [now apply drop_asc|].
    intros q. rewrite drop_look by exact A. destruct (str_dec p q); [reflexivity|apply L].
Qed.

(** * The theorems *)
(** Registering a name succeeds exactly if it is free and not too long. *)
Theorem rib_registers h p o :
  fst (rib_reg true (tree true h) p o) =
  match has h p with
  | Some _ => (-1)%Z
  | None => if (length p <=? 300)%nat then 0%Z else (-1)%Z
  end.
Proof.
  destruct (tree_inv h) as [A L]. unfold rib_reg. cbn [negb].
  destruct (put (tree true h) p o) as [m|] eqn:E.
  - assert (Np : has h p = None).
    { rewrite <- L. destruct (look (tree true h) p) eqn:K; [|reflexivity].
      assert (I : In p (map fst (tree true h))) by (apply look_in; congruence).
      apply (put_none _ _ o A) in I. congruence. }
    rewrite Np. unfold RIB_PATH_LEN.
    destruct (Nat.ltb_spec 300 (length p)), (Nat.leb_spec (length p) 300); try lia; reflexivity.
  - apply (put_none _ _ o A) in E. apply look_in in E. rewrite L in E. destruct (has h p); [reflexivity|now elim E].
Qed.

(** The top lists what is registered, in alphabetical order, each name once. *)
Theorem rib_top h :
  exists l, rib_readdir (tree true h) [47] = Listed ([46] :: [46; 46] :: l) /\
    ascending l /\ NoDup l /\ forall q, In q l <-> has h q <> None.
Proof.
  destruct (tree_inv h) as [A L].
  exists (map fst (tree true h)). unfold rib_readdir. rewrite streq_refl. split; [reflexivity|].
  split; [exact A|]. split.
  - clear L. induction A as [|a l B C IH]; constructor; [|exact IH].
    intros I. exact (before_irr a (B a I)).
  - intros q. rewrite <- L. now rewrite look_in.
Qed.

Lemma before_plain n e : ~ In 47 n -> before (n ++ 47 :: e) = n.
Proof.
  induction n as [|c n IH]; intros H; cbn; [reflexivity|].
  destruct (N.eqb_spec c SEP) as [E|_].
  - elim H. left. now rewrite E.
  - f_equal. apply IH. intros I. apply H. now right.
Qed.
Lemma after_plain n e : ~ In 47 n -> after (n ++ 47 :: e) = Some e.
Proof.
  induction n as [|c n IH]; intros H; cbn; [reflexivity|].
  destruct (N.eqb_spec c SEP) as [E|_].
  - elim H. left. now rewrite E.
  - apply IH. intros I. apply H. now right.
Qed.
Lemma before_whole n : ~ In 47 n -> before n = n.
Proof.
  induction n as [|c n IH]; intros H; cbn; [reflexivity|].
  destruct (N.eqb_spec c SEP) as [E|_].
  - elim H. left. now rewrite E.
  - f_equal. apply IH. intros I. apply H. now right.
Qed.
Lemma has_short h q x : has h q = Some x -> (length q <= 300)%nat.
Proof.
  revert x; induction h as [|[p o|p] h IH]; cbn; intros x H; [discriminate| |].
  - destruct (str_dec p q) as [E|_]; [|exact (IH x H)].
    destruct (has h q) as [y|] eqn:K; [exact (IH y eq_refl)|].
    destruct (Nat.leb_spec (length p) 300) as [G|G]; [|discriminate]. now rewrite E in G.
  - destruct (str_dec p q); [discriminate|exact (IH x H)].
Qed.

(** A file is read by the component that has registered the directory it is in. *)
Theorem rib_reads h n e size : plain n ->
  rib_read (tree true h) (file n e) size =
  if (length (file n e) <=? 300)%nat then
    match has h n with Some o => o_read o (n ++ 47 :: e) size | None => Ret (-1) [] end
  else Ret (-1) [].
Proof.
  intros [P _]. destruct (tree_inv h) as [_ L]. unfold rib_read, RIB_PATH_LEN.
  destruct (Nat.ltb_spec 300 (length (file n e))), (Nat.leb_spec (length (file n e)) 300); try lia; [reflexivity|].
  unfold file at 1. cbn [tl]. rewrite before_plain by exact P. now rewrite L.
Qed.

(** The directory of a component lists what the component lists. *)
Theorem rib_lists h n : plain n ->
  rib_readdir (tree true h) (dir n) =
  match has h n with
  | Some o => match o_list o with Listed l => Listed ([46] :: [46; 46] :: l) | LFail => Listed [[46]; [46; 46]] | LCrash => LCrash end
  | None => Listed [[46]; [46; 46]]
  end.
Proof.
  intros [P Ne]. destruct (tree_inv h) as [A L]. unfold rib_readdir.
  rewrite streq_ne by (unfold dir; destruct n; [now elim Ne|discriminate]).
  unfold dir. cbn [tl]. rewrite <- L. clear L.
  assert (D : forall l, ascending (map fst l) -> dirs l n =
    match look l n with Some o => match o_list o with LFail => Listed [] | x => x end | None => Listed [] end).
  { clear. induction l as [|[q x] l IH]; cbn; intros A; [reflexivity|]. inversion A as [|? ? B C]; subst.
    specialize (IH C). destruct (streq n q) eqn:E; [|exact IH].
    apply streq_iff in E. subst.
    destruct (o_list x); try reflexivity. rewrite IH.
    destruct (look l q) eqn:K.
    - assert (I : In q (map fst l)) by (apply look_in; congruence). elim (before_irr q). now apply B.
    - now rewrite app_nil_r. }
  rewrite (D _ A). destruct (look (tree true h) n) as [o|]; [|reflexivity]. now destruct (o_list o).
Qed.

(** The top and the components are directories, and only they; anything below a
    component is a file with the attributes that the component gives. *)
Theorem rib_stats h :
  rib_getattr (tree true h) [47] = IsDir /\
  (forall n, plain n -> rib_getattr (tree true h) (dir n) = match has h n with Some _ => IsDir | None => NoEnt end) /\
  (forall n e, plain n -> has h (n ++ 47 :: e) = None ->
     rib_getattr (tree true h) (file n e) =
     if (length (file n e) <=? 300)%nat then
       match has h n with
       | Some o => match o_attr o (n ++ 47 :: e) with Attr s m => IsFile s m | ACrash => StCrash end
       | None => NoEnt
       end
     else NoEnt).
Proof.
  destruct (tree_inv h) as [A L]. split; [reflexivity|]. split.
  - intros n [P Ne]. unfold rib_getattr.
    rewrite streq_ne by (unfold dir; destruct n; [now elim Ne|discriminate]).
    unfold dir. cbn [tl]. rewrite L. destruct (has h n) eqn:K; [reflexivity|].
    rewrite before_whole by exact P. rewrite L, K. now destruct (_ <? _)%nat.
  - intros n e [P Ne] U. unfold rib_getattr.
    rewrite streq_ne by (unfold file; destruct n; [now elim Ne|discriminate]).
    unfold file at 1. cbn [tl]. rewrite L, U. unfold RIB_PATH_LEN.
    destruct (Nat.ltb_spec 300 (length (file n e))), (Nat.leb_spec (length (file n e)) 300); try lia; [reflexivity|].
    unfold file at 1. cbn [tl]. rewrite before_plain by exact P. now rewrite L.
Qed.

(** Without a mount point every call succeeds and nothing is kept. *)
Theorem rib_unmounted h p o : rib_reg false (tree false h) p o = (0%Z, []) /\ tree false h = [].
Proof.
  assert (E : tree false h = []) by (induction h as [|[q x|q] h IH]; cbn; [reflexivity|exact IH|exact IH]).
  rewrite E. split; reflexivity.
Qed.

Print Assumptions rib_registers.
Print Assumptions rib_top.
Print Assumptions rib_reads.
Print Assumptions rib_lists.
Print Assumptions rib_stats.
Print Assumptions rib_unmounted.

(** Three components, one of them twice, one gone again. *)
Definition oa : ops := Ops (fun p _ => Ret 1 p) (Listed [[120]]) (fun _ => Attr 7 8).
Definition ob : ops := Ops (fun p _ => Ret 2 p) LFail (fun _ => Attr 9 8).
Definition hx : list ev := [Unreg [99]; Reg [97] oa; Reg [98] ob; Reg [99] oa; Reg [98] oa].
Example rib_met :
  rib_readdir (tree true hx) [47] = Listed [[46]; [46; 46]; [97]; [98]] /\
  rib_read (tree true hx) (file [98] [120]) 10 = Ret 1 [98; 47; 120] /\
  rib_getattr (tree true hx) (dir [99]) = NoEnt /\
  rib_getattr (tree true hx) (file [97] [121]) = IsFile 7 8 /\
  plain [97] /\ has hx [98] = Some oa.
Proof. repeat (split; [reflexivity|]). split; [|reflexivity]. split; [intros [H|[]]; discriminate|discriminate]. Qed.
