(* Dijkstra's algorithm computes distances and first hops. *)

From Coq Require Import NArith ZArith List Bool Lia Sorted Arith.
From Coq Require Import ZifyBool ZifyNat ZifyN.
From Verif Require Import GraphModel GraphSpec GraphProofs.
Import ListNotations.

(* The links used for routing: edges announced twice. *)
Definition glink (g : graph) (a b : N) : Prop :=
  exists v e w, In v (gvs g) /\ vaddr v = a /\ In e (vedges v) /\ eann e = 2%Z /\
    deref g (enb e) = Some w /\ vaddr w = b.

(* ---- Walks ---- *)

Lemma walk_snoc : forall link a b n c, walk link a b n -> link b c -> walk link a c (S n).
Proof.
  induction 1 as [a|a x b n H1 H2 IH]; intros H.
  - econstructor; eauto. constructor.
  - econstructor; eauto.
Qed.

Lemma walk_snoc_inv : forall link n a c, walk link a c (S n) ->
  exists b, walk link a b n /\ link b c.
Proof.
  induction n as [|n IH]; intros a c H; inversion H as [|? b ? ? H1 H2]; subst.
  - inversion H2; subst. exists a. split; [constructor | assumption].
  - apply IH in H2 as (x & H2 & H3). exists x. split; [|assumption]. econstructor; eauto.
Qed.

Lemma walk_app : forall link a b c n m, walk link a b n -> walk link b c m -> walk link a c (n + m).
Proof.
  induction 1; intros H2; cbn; auto. econstructor; eauto.
Qed.

Lemma walk_rev : forall (link : N -> N -> Prop), (forall a b, link a b -> link b a) ->
  forall a b n, walk link a b n -> walk link b a n.
Proof.
  intros link Hs a b n H. induction H as [a|a x b n H1 H2 IH]; [constructor|].
  eapply walk_snoc; eauto.
Qed.

Lemma distance_fun : forall link a b n m, distance link a b n -> distance link a b m -> n = m.
Proof. intros link a b n m [H1 H2] [H3 H4]. apply H2 in H3. apply H4 in H1. lia. Qed.

(* ---- Arrays ---- *)

Lemma set_nth_length : forall (A : Type) i (x : A) l, length (set_nth i x l) = length l.
Proof.
  induction i as [|i IH]; intros x [|y l]; cbn; auto.
Qed.

Lemma set_nth_nth : forall (A : Type) i (x : A) l j d, i < length l ->
  nth j (set_nth i x l) d = if Nat.eqb j i then x else nth j l d.
Proof.
  induction i as [|i IH]; intros x [|y l] j d H; cbn in *; try lia.
  - destruct j; reflexivity.
  - destruct j as [|j]; cbn; [reflexivity|]. apply IH. lia.
Qed.

Lemma aget_nth : forall (A : Type) (l : list A) i d, (0 <= i < Z.of_nat (length l))%Z ->
  aget l i = Ok (nth (Z.to_nat i) l d).
Proof.
  intros A l i d H. unfold aget. destruct (Z.ltb_spec i 0); [lia|].
  rewrite nth_error_nth' with (d := d) by lia. reflexivity.
Qed.

Lemma aset_nth : forall (A : Type) (l : list A) i x, (0 <= i < Z.of_nat (length l))%Z ->
  aset l i x = Ok (set_nth (Z.to_nat i) x l).
Proof.
  intros A l i x H. unfold aset. destruct l as [|d l'].
  - cbn in H. lia.
  - rewrite aget_nth with (d := d) by assumption. reflexivity.
Qed.

Definition cnt_used (l : list bool) : nat := length (filter (fun b => b) l).

Lemma cnt_set : forall i l, i < length l -> nth i l true = false ->
  cnt_used (set_nth i true l) = S (cnt_used l).
Proof.
  induction i as [|i IH]; intros [|b l] L E; cbn [length] in L; try lia.
  - cbn [nth] in E. subst b. reflexivity.
  - cbn [nth] in E. assert (Hi : i < length l) by lia. specialize (IH l Hi E).
    unfold cnt_used in *. cbn [set_nth filter]. destruct b; cbn [length]; rewrite IH; reflexivity.
Qed.

Lemma cnt_le : forall l, cnt_used l <= length l.
Proof. induction l as [|[] l IH]; unfold cnt_used in *; cbn; lia. Qed.

Lemma cnt_full : forall l i, cnt_used l = length l -> i < length l -> nth i l true = true.
Proof.
  induction l as [|b l IH]; intros i E H; cbn in *; [lia|].
  pose proof (cnt_le l) as L. unfold cnt_used in *. cbn in E. destruct b; cbn in E; [|lia].
  destruct i as [|i]; [reflexivity|]. apply IH; lia.
Qed.

Section Dijkstra.

  Variable g : graph.
  Hypothesis W : wfp g.
  Hypothesis Small : (Z.of_nat (length (gvs g)) + 1 < INT_MAX)%Z.
  Variable src : N.

  Notation lk := (glink g).
  Notation n := (length (gvs g)).

  Definition pos (v : vertex) : nat := Z.to_nat (vindex v).

  Lemma pos_ok : forall v, In v (gvs g) ->
    nth_error (gvs g) (pos v) = Some v /\ vindex v = Z.of_nat (pos v) /\ pos v < n.
  Proof.
    intros v H. apply In_nth_error in H as (i & Hi). pose proof (p_index g W i v Hi) as E.
    unfold pos. rewrite E, Nat2Z.id. split; [assumption|]. split; [reflexivity|].
    apply nth_error_Some. congruence.
  Qed.

  Lemma pos_inj : forall v w, In v (gvs g) -> In w (gvs g) -> pos v = pos w -> v = w.
  Proof.
    intros v w Hv Hw E. apply pos_ok in Hv as (Hv & _). apply pos_ok in Hw as (Hw & _).
    rewrite E in Hv. congruence.
  Qed.

  Definition D (dist : list Z) (v : vertex) : Z := nth (pos v) dist INT_MAX.
  Definition U (used : list bool) (v : vertex) : bool := nth (pos v) used true.
  Definition H (nhops : list (option N)) (v : vertex) : option N := nth (pos v) nhops None.

  Lemma get_D : forall dist v, In v (gvs g) -> length dist = n ->
    aget dist (vindex v) = Ok (D dist v).
  Proof.
    intros dist v Hv Hl. pose proof (pos_ok v Hv) as (_ & E & L).
    unfold D. rewrite aget_nth with (d := INT_MAX) by lia. reflexivity.
  Qed.

  Lemma get_H : forall nh v, In v (gvs g) -> length nh = n ->
    aget nh (vindex v) = Ok (H nh v).
  Proof.
    intros nh v Hv Hl. pose proof (pos_ok v Hv) as (_ & E & L).
    unfold H. rewrite aget_nth with (d := None) by lia. reflexivity.
  Qed.

  Lemma get_U : forall us v, In v (gvs g) -> length us = n ->
    aget us (vindex v) = Ok (U us v).
  Proof.
    intros us v Hv Hl. pose proof (pos_ok v Hv) as (_ & E & L).
    unfold U. rewrite aget_nth with (d := true) by lia. reflexivity.
  Qed.

  Lemma set_ok : forall (A : Type) (l : list A) v x, In v (gvs g) -> length l = n ->
    aset l (vindex v) x = Ok (set_nth (pos v) x l).
  Proof.
    intros A l v x Hv Hl. pose proof (pos_ok v Hv) as (_ & E & L).
    rewrite aset_nth by lia. reflexivity.
  Qed.

  Lemma set_get : forall (A : Type) (l : list A) v x w d, In v (gvs g) -> In w (gvs g) ->
    length l = n ->
    nth (pos w) (set_nth (pos v) x l) d = if N.eqb (vid w) (vid v) then x else nth (pos w) l d.
  Proof.
    intros A l v x w d Hv Hw Hl. pose proof (pos_ok v Hv) as (_ & E & L).
    rewrite set_nth_nth by lia.
    destruct (N.eqb_spec (vid w) (vid v)) as [E1|E1].
    - assert (w = v) as ->.
      { assert (A1 : deref g (vid v) = Some w) by (apply deref_iff; auto).
        assert (A2 : deref g (vid v) = Some v) by (apply deref_iff; auto). congruence. }
      now rewrite Nat.eqb_refl.
    - destruct (Nat.eqb_spec (pos w) (pos v)) as [E2|E2]; [|reflexivity].
      exfalso. apply E1. f_equal. now apply pos_inj.
  Qed.

  (* ---- Invariant ---- *)

  Record inv (dist : list Z) (nhops : list (option N)) (used : list bool) : Prop := INV
    { i_ld : length dist = n;
      i_ln : length nhops = n;
      i_lu : length used = n;
      i_max : forall v, In v (gvs g) -> (0 <= D dist v <= INT_MAX)%Z;
      i_src : forall v, In v (gvs g) -> vaddr v = src -> D dist v = 0%Z /\ H nhops v = None;
      i_walk : forall v, In v (gvs g) -> (D dist v < INT_MAX)%Z ->
         walk lk src (vaddr v) (Z.to_nat (D dist v));
      i_hop : forall v, In v (gvs g) -> (D dist v < INT_MAX)%Z -> vaddr v <> src ->
         (1 <= D dist v)%Z /\
         exists w, In w (gvs g) /\ H nhops v = Some (vid w) /\ lk src (vaddr w) /\
           walk lk (vaddr w) (vaddr v) (Z.to_nat (D dist v - 1));
      i_none : forall v, In v (gvs g) -> D dist v = INT_MAX -> H nhops v = None;
      i_used : forall v, In v (gvs g) -> U used v = true -> (D dist v < INT_MAX)%Z;
      i_mono : forall v w, In v (gvs g) -> In w (gvs g) -> U used v = true -> U used w = false ->
         (D dist v <= D dist w)%Z;
      i_cnt : forall v, In v (gvs g) -> (D dist v < INT_MAX)%Z ->
         (D dist v <= Z.of_nat (cnt_used used))%Z }.

  (* The edges of used vertices are relaxed, but for the edges es of u. *)
  Definition closed (u : N) (es : list edge) (dist : list Z) (used : list bool) : Prop :=
    forall v e w, In v (gvs g) -> U used v = true -> In e (vedges v) -> eann e = 2%Z ->
      deref g (enb e) = Some w -> (vid v <> u \/ ~ In e es) ->
      (D dist w <= D dist v + 1)%Z.

  Definition all_closed (dist : list Z) (used : list bool) : Prop :=
    forall v e w, In v (gvs g) -> U used v = true -> In e (vedges v) -> eann e = 2%Z ->
      deref g (enb e) = Some w -> (D dist w <= D dist v + 1)%Z.

  Lemma relax_ok : forall u, In u (gvs g) -> forall es dist nhops used,
    (forall e, In e es -> In e (vedges u)) ->
    inv dist nhops used -> closed (vid u) es dist used -> U used u = true ->
    (forall v, In v (gvs g) -> U used v = true -> (D dist v <= D dist u)%Z) ->
    (D dist u + 1 <= Z.of_nat (cnt_used used))%Z ->
    exists dist' nhops', relax g src u (vindex u) es dist nhops = Ok (dist', nhops') /\
      inv dist' nhops' used /\ all_closed dist' used.
  Proof.
    intros u Hu. induction es as [|e es IH]; intros dist nhops used Hes I C Uu T K.
    - exists dist, nhops. split; [reflexivity|]. split; [assumption|].
      intros v e w H1 H2 H3 H4 H5. apply (C v e w); auto.
    - cbn [relax].
      assert (He : In e (vedges u)) by (apply Hes; now left).
      assert (Hes' : forall e0, In e0 es -> In e0 (vedges u)) by (intros; apply Hes; now right).
      destruct (Z.eqb_spec (eann e) 2) as [E2|E2]; cbn [negb].
      2:{ apply IH; auto. intros v e0 w H1 H2 H3 H4 H5 H6. apply (C v e0 w); auto.
          destruct H6 as [H6|H6]; auto. right. intros [->|H7]; [congruence | contradiction]. }
      destruct I as [Ld Ln Lu Imax Isrc Iwalk Ihop Inone Iused Imono Icnt].
      rewrite (get_D dist u) by assumption. cbn [rbind].
      pose proof (Iused u Hu Uu) as Du. pose proof (Imax u Hu) as Mu.
      destruct (Z.ltb_spec INT_MAX (D dist u + 1)) as [B|B]; [lia|].
      destruct (deref_in g W (enb e)) as (w & Hw). { now apply (p_nb g W u). }
      rewrite Hw. cbn [lift rbind].
      pose proof (proj1 (deref_iff g W _ _) Hw) as (Hwi & Hwe).
      rewrite (get_D dist w) by assumption. cbn [rbind].
      assert (Luw : lk (vaddr u) (vaddr w)) by (exists u, e, w; auto 10).
      destruct (Z.ltb_spec (D dist u + 1) (D dist w)) as [A|A].
      + rewrite set_ok by assumption. cbn [rbind].
        pose proof (Imax w Hwi) as Mw.
        assert (Unw : U used w = false).
        { destruct (U used w) eqn:Ew; auto. specialize (T w Hwi Ew). lia. }
        assert (Nws : vaddr w <> src).
        { intros Hq. destruct (Isrc w Hwi Hq) as (Hq0 & _). lia. }
        set (dist' := set_nth (pos w) (D dist u + 1)%Z dist).
        assert (HD : forall v, In v (gvs g) ->
                  D dist' v = if N.eqb (vid v) (vid w) then (D dist u + 1)%Z else D dist v).
        { intros v Hv. apply set_get; auto. }
        assert (Hh : exists h hw, (if N.eqb (vaddr u) src then Ok (Some (enb e)) else aget nhops (vindex u))
                    = Ok h /\ h = Some (vid hw) /\ In hw (gvs g) /\ lk src (vaddr hw) /\
                    walk lk (vaddr hw) (vaddr w) (Z.to_nat (D dist u))).
        { destruct (N.eqb_spec (vaddr u) src) as [Es|Es].
          - exists (Some (enb e)), w. split; [reflexivity|]. split; [congruence|].
            split; [assumption|]. split; [now rewrite <- Es|].
            destruct (Isrc u Hu Es) as (-> & _). constructor.
          - rewrite get_H by assumption. destruct (Ihop u Hu Du Es) as (P & hw & H1 & H2 & H3 & H4).
            exists (H nhops u), hw. split; [reflexivity|]. split; [assumption|]. split; [assumption|].
            split; [assumption|].
            replace (Z.to_nat (D dist u)) with (S (Z.to_nat (D dist u - 1))) by lia.
            eapply walk_snoc; eauto. }
        destruct Hh as (h & hw & -> & Ehw & Hhw & Lhw & Whw). cbn [rbind].
        rewrite set_ok by assumption. cbn [rbind].
        set (nhops' := set_nth (pos w) h nhops).
        assert (HH : forall v, In v (gvs g) ->
                  H nhops' v = if N.eqb (vid v) (vid w) then h else H nhops v).
        { intros v Hv. apply set_get; auto. }
        assert (Huv : forall v, In v (gvs g) -> U used v = true -> D dist' v = D dist v).
        { intros v Hv Uv. rewrite HD by assumption.
          destruct (N.eqb_spec (vid v) (vid w)) as [E|E]; [|reflexivity].
          assert (v = w).
          { assert (A1 : deref g (vid w) = Some v) by (apply deref_iff; auto).
            assert (A2 : deref g (vid w) = Some w) by (apply deref_iff; auto). congruence. }
          subst v. congruence. }
        assert (Hle : forall v, In v (gvs g) -> (D dist' v <= D dist v)%Z).
        { intros v Hv. rewrite HD by assumption.
          destruct (N.eqb_spec (vid v) (vid w)) as [E|E]; [|lia].
          assert (v = w).
          { assert (A1 : deref g (vid w) = Some v) by (apply deref_iff; auto).
            assert (A2 : deref g (vid w) = Some w) by (apply deref_iff; auto). congruence. }
          subst v. lia. }
        assert (Hcase : forall v, In v (gvs g) -> v = w \/ vid v <> vid w).
        { intros v Hv. destruct (N.eq_dec (vid v) (vid w)) as [E|E]; auto. left.
          assert (A1 : deref g (vid w) = Some v) by (apply deref_iff; auto).
          assert (A2 : deref g (vid w) = Some w) by (apply deref_iff; auto). congruence. }
        assert (HDw : D dist' w = (D dist u + 1)%Z) by (rewrite HD, N.eqb_refl; auto).
        assert (HDo : forall v, In v (gvs g) -> vid v <> vid w -> D dist' v = D dist v).
        { intros v Hv Hne. rewrite HD by assumption. destruct (N.eqb_spec (vid v) (vid w)); [contradiction|reflexivity]. }
        assert (HHw : H nhops' w = h) by (rewrite HH, N.eqb_refl; auto).
        assert (HHo : forall v, In v (gvs g) -> vid v <> vid w -> H nhops' v = H nhops v).
        { intros v Hv Hne. rewrite HH by assumption. destruct (N.eqb_spec (vid v) (vid w)); [contradiction|reflexivity]. }
        apply IH; auto.
        * constructor.
          -- unfold dist'. rewrite set_nth_length. assumption.
          -- unfold nhops'. rewrite set_nth_length. assumption.
          -- assumption.
          -- intros v Hv. destruct (Hcase v Hv) as [->|E]; [rewrite HDw; lia | rewrite HDo; auto].
          -- intros v Hv Hs. destruct (Hcase v Hv) as [->|E]; [contradiction|].
             rewrite HDo, HHo by assumption. auto.
          -- intros v Hv. destruct (Hcase v Hv) as [->|E].
             ++ rewrite HDw. intros _. replace (Z.to_nat (D dist u + 1)) with (S (Z.to_nat (D dist u))) by lia.
                eapply walk_snoc; [|exact Luw]. auto.
             ++ rewrite HDo by assumption. auto.
          -- intros v Hv. destruct (Hcase v Hv) as [->|E].
             ++ rewrite HDw, HHw. intros _ _. split; [lia|]. exists hw. split; [assumption|].
                split; [assumption|]. split; [assumption|].
                replace (D dist u + 1 - 1)%Z with (D dist u) by lia. assumption.
             ++ rewrite HDo, HHo by assumption. auto.
          -- intros v Hv. destruct (Hcase v Hv) as [->|E].
             ++ rewrite HDw. lia.
             ++ rewrite HDo, HHo by assumption. auto.
          -- intros v Hv Uv. rewrite Huv by assumption. auto.
          -- intros v x Hv Hx Uv Ux. rewrite Huv by assumption.
             destruct (Hcase x Hx) as [->|E]; [rewrite HDw; specialize (T v Hv Uv); lia|].
             rewrite HDo; auto.
          -- intros v Hv. destruct (Hcase v Hv) as [->|E]; [rewrite HDw; lia | rewrite HDo; auto].
        * intros v e0 x H1 H2 H3 H4 H5 H6. rewrite (Huv v) by assumption.
          assert (Hx : In x (gvs g)) by (apply deref_iff in H5; tauto).
          destruct (Hcase x Hx) as [->|Ex].
          -- rewrite HDw. destruct (N.eq_dec (vid v) (vid u)) as [Ev|Ev].
             ++ assert (v = u).
                { assert (A1 : deref g (vid u) = Some v) by (apply deref_iff; auto).
                  assert (A2 : deref g (vid u) = Some u) by (apply deref_iff; auto). congruence. }
                subst v. lia.
             ++ specialize (Hle w Hwi). assert (D dist w <= D dist v + 1)%Z by (apply (C v e0 w); auto). lia.
          -- rewrite HDo by assumption. destruct H6 as [H6|H6]; [apply (C v e0 x); auto|].
             destruct (N.eq_dec (vid v) (vid u)) as [Ev|Ev]; [|apply (C v e0 x); auto].
             apply (C v e0 x); auto. right. intros [Hq|Hq]; [|contradiction].
             subst e0. apply Ex. congruence.
        * intros v Hv Uv. rewrite !Huv by assumption. auto.
        * rewrite Huv by assumption. assumption.
      + apply IH; auto.
        * constructor; assumption.
        * intros v e0 x H1 H2 H3 H4 H5 H6.
          destruct (N.eq_dec (vid v) (vid u)) as [Ev|Ev]; [|apply (C v e0 x); auto].
          assert (v = u).
          { assert (A1 : deref g (vid u) = Some v) by (apply deref_iff; auto).
            assert (A2 : deref g (vid u) = Some u) by (apply deref_iff; auto). congruence. }
          subst v. destruct H6 as [H6|H6]; [congruence|].
          destruct (N.eq_dec (enb e0) (enb e)) as [Ee|Ee].
          -- assert (x = w) by congruence. subst x. lia.
          -- apply (C u e0 x); auto. right. intros [Hq|Hq]; [congruence | contradiction].
  Qed.

  (* ---- The closest unused vertex ---- *)

  Lemma get_min_loop_ok : forall dist used, length dist = n -> length used = n ->
    forall post pre min best, gvs g = pre ++ post ->
    (forall v, In v pre -> U used v = false -> (min <= D dist v)%Z) ->
    (forall i v, best = Some (i, v) -> In v (gvs g) /\ i = vindex v /\ U used v = false /\ D dist v = min) ->
    (best = None -> min = INT_MAX) -> (min <= INT_MAX)%Z ->
    (best <> None -> (min < INT_MAX)%Z) ->
    exists b, get_min_loop post dist used (Z.of_nat (length pre)) min best = Ok b /\
      match b with
      | None => forall v, In v (gvs g) -> U used v = false -> (INT_MAX <= D dist v)%Z
      | Some (i, u) => In u (gvs g) /\ i = vindex u /\ U used u = false /\ (D dist u < INT_MAX)%Z /\
          forall v, In v (gvs g) -> U used v = false -> (D dist u <= D dist v)%Z
      end.
  Proof.
    intros dist used Ld Lu. induction post as [|x post IH]; intros pre min best E Hmin Hb Hn Hm Hs; cbn [get_min_loop].
    - rewrite app_nil_r in E. subst pre. exists best. split; [reflexivity|].
      destruct best as [[i u]|].
      + destruct (Hb i u eq_refl) as (H1 & H2 & H3 & H4). split; [assumption|]. split; [assumption|].
        split; [assumption|]. rewrite H4. split; [apply Hs; discriminate | assumption].
      + rewrite (Hn eq_refl) in Hmin. assumption.
    - assert (Hx : In x (gvs g)) by (rewrite E; apply in_or_app; right; now left).
      assert (Ex : vindex x = Z.of_nat (length pre)).
      { apply (p_index g W). rewrite E, nth_error_app2, Nat.sub_diag by lia. reflexivity. }
      rewrite <- Ex. rewrite get_U, get_D by assumption. cbn [rbind].
      assert (E' : gvs g = (pre ++ [x]) ++ post) by (rewrite <- app_assoc; exact E).
      assert (El : (vindex x + 1)%Z = Z.of_nat (length (pre ++ [x]))) by (rewrite app_length; cbn; lia).
      rewrite El.
      destruct (U used x) eqn:Ux; cbn [negb andb].
      + apply IH; auto. intros v Hv Uv. apply in_app_iff in Hv as [Hv|[<-|[]]]; auto. congruence.
      + destruct (Z.ltb_spec (D dist x) min) as [L|L].
        * apply IH; auto.
          -- intros v Hv Uv. apply in_app_iff in Hv as [Hv|[<-|[]]]; [|lia]. specialize (Hmin v Hv Uv). lia.
          -- intros i v Hq. injection Hq as <- <-. auto.
          -- discriminate.
          -- lia.
          -- intros _. lia.
        * apply IH; auto. intros v Hv Uv. apply in_app_iff in Hv as [Hv|[<-|[]]]; auto.
  Qed.

  Lemma get_min_ok : forall dist used, length dist = n -> length used = n ->
    exists b used', get_min_vertex g dist used = Ok (b, used') /\
      match b with
      | None => forall v, In v (gvs g) -> U used v = false -> (INT_MAX <= D dist v)%Z
      | Some (i, u) => used' = set_nth (pos u) true used /\
          In u (gvs g) /\ i = vindex u /\ U used u = false /\ (D dist u < INT_MAX)%Z /\
          forall v, In v (gvs g) -> U used v = false -> (D dist u <= D dist v)%Z
      end.
  Proof.
    intros dist used Ld Lu. unfold get_min_vertex.
    destruct (get_min_loop_ok dist used Ld Lu (gvs g) [] INT_MAX None) as (b & Eb & P);
      try reflexivity; try lia; try (intros; discriminate); try (intros; contradiction).
    cbn [length Z.of_nat] in Eb. rewrite Eb. cbn [rbind].
    destruct b as [[i u]|].
    - destruct P as (H1 & H2 & H3 & H4 & H5). subst i. rewrite set_ok by assumption. cbn [rbind].
      exists (Some (vindex u, u)), (set_nth (pos u) true used). split; [reflexivity|]. auto 10.
    - exists None, used. auto.
  Qed.

  (* ---- The loop ---- *)

  Record post (dist : list Z) (nhops : list (option N)) (used : list bool) : Prop := POST
    { po_inv : inv dist nhops used;
      po_closed : all_closed dist used;
      po_done : forall v, In v (gvs g) -> U used v = false -> (INT_MAX <= D dist v)%Z }.

  Lemma loop_ok : forall fuel dist nhops used, inv dist nhops used -> all_closed dist used ->
    cnt_used used + fuel = n ->
    exists dist' nhops' used', dijkstra_loop fuel g src dist nhops used = Ok (dist', nhops') /\
      post dist' nhops' used'.
  Proof.
    induction fuel as [|fuel IH]; intros dist nhops used I C K; cbn [dijkstra_loop];
      destruct (get_min_ok dist used (i_ld _ _ _ I) (i_lu _ _ _ I)) as (b & used' & -> & P); cbn [rbind];
      destruct b as [[i u]|]; try (exists dist, nhops, used; split; [reflexivity|]; constructor; assumption);
      destruct P as (-> & Hu & -> & Uu & Du & Hmin).
    - exfalso. pose proof (pos_ok u Hu) as (_ & _ & L). pose proof (i_lu _ _ _ I) as Lu.
      unfold U in Uu. rewrite cnt_full in Uu; [discriminate | lia | lia].
    - pose proof (pos_ok u Hu) as (_ & _ & L). pose proof (i_lu _ _ _ I) as Lu.
      set (used' := set_nth (pos u) true used).
      assert (HU : forall v, In v (gvs g) -> U used' v = if N.eqb (vid v) (vid u) then true else U used v).
      { intros v Hv. apply set_get; auto. }
      assert (HUu : U used' u = true) by (rewrite HU, N.eqb_refl; auto).
      assert (Hc : cnt_used used' = S (cnt_used used)) by (apply cnt_set; [lia | exact Uu]).
      assert (Hcase : forall v, In v (gvs g) -> U used' v = true -> v = u \/ U used v = true).
      { intros v Hv Uv. rewrite HU in Uv by assumption.
        destruct (N.eqb_spec (vid v) (vid u)) as [E|E]; auto. left.
        assert (A1 : deref g (vid u) = Some v) by (apply deref_iff; auto).
        assert (A2 : deref g (vid u) = Some u) by (apply deref_iff; auto). congruence. }
      assert (Hcase2 : forall v, In v (gvs g) -> U used' v = false -> U used v = false).
      { intros v Hv Uv. rewrite HU in Uv by assumption. destruct (N.eqb (vid v) (vid u)); [discriminate | auto]. }
      pose proof (i_cnt _ _ _ I u Hu Du) as Ku.
      assert (I' : inv dist nhops used').
      { destruct I as [Ld Ln Lu0 Imax Isrc Iwalk Ihop Inone Iused Imono Icnt].
        constructor; auto.
        - unfold used'. now rewrite set_nth_length.
        - intros v Hv Uv. destruct (Hcase v Hv Uv) as [->|Uv']; auto.
        - intros v w Hv Hw Uv Uw. destruct (Hcase v Hv Uv) as [->|Uv']; auto.
        - intros v Hv Dv. specialize (Icnt v Hv Dv). lia. }
      destruct (relax_ok u Hu (vedges u) dist nhops used') as (dist' & nhops' & -> & I'' & C''); auto.
      { intros v e w H1 H2 H3 H4 H5 H6. destruct (Hcase v H1 H2) as [->|Uv].
        - destruct H6 as [H6|H6]; [congruence | contradiction].
        - apply (C v e w); auto. }
      { intros v Hv Uv. destruct (Hcase v Hv Uv) as [->|Uv']; [lia|].
        apply (i_mono _ _ _ I); auto. }
      { rewrite Hc. lia. }
      cbn [rbind].
      destruct (IH dist' nhops' used' I'' C'') as (d & h & us & E & P); [lia|].
      exists d, h, us. auto.
  Qed.

  (* ---- Result ---- *)

  Definition dist0 : list Z :=
    map (fun v => if N.eqb (vaddr v) src then 0%Z else INT_MAX) (gvs g).

  Lemma D0 : forall v, In v (gvs g) -> D dist0 v = if N.eqb (vaddr v) src then 0%Z else INT_MAX.
  Proof.
    intros v Hv. pose proof (pos_ok v Hv) as (E & _ & L). unfold D, dist0.
    assert (E2 : nth_error (map (fun v => if N.eqb (vaddr v) src then 0%Z else INT_MAX) (gvs g)) (pos v)
            = Some (if N.eqb (vaddr v) src then 0%Z else INT_MAX)).
    { rewrite nth_error_map, E. reflexivity. }
    now apply nth_error_nth.
  Qed.

  Lemma const_nth : forall (A B : Type) (l : list A) (c d : B) i, i < length l ->
    nth i (map (fun _ => c) l) d = c.
  Proof.
    induction l as [|x l IH]; intros c d i Hi; cbn in *; [lia|].
    destruct i as [|i]; [reflexivity|]. apply IH. lia.
  Qed.

  Lemma const_cnt : forall (l : list vertex), cnt_used (map (fun _ => false) l) = 0.
  Proof. induction l as [|x l IH]; auto. Qed.

  Lemma inv0 : inv dist0 (map (fun _ => None) (gvs g)) (map (fun _ => false) (gvs g)).
  Proof.
    assert (HU : forall v, In v (gvs g) -> U (map (fun _ => false) (gvs g)) v = false).
    { intros v Hv. pose proof (pos_ok v Hv) as (_ & _ & L). unfold U. now apply const_nth. }
    assert (HH : forall v, In v (gvs g) -> H (map (fun _ => None) (gvs g)) v = None).
    { intros v Hv. pose proof (pos_ok v Hv) as (_ & _ & L). unfold H. now apply const_nth. }
    constructor.
    - unfold dist0. apply map_length.
    - apply map_length.
    - apply map_length.
    - intros v Hv. rewrite D0 by assumption. unfold INT_MAX. destruct (N.eqb (vaddr v) src); lia.
    - intros v Hv E. rewrite D0 by assumption. rewrite E, N.eqb_refl. auto.
    - intros v Hv. rewrite D0 by assumption. destruct (N.eqb_spec (vaddr v) src) as [E|E]; [|lia].
      intros _. rewrite E. constructor.
    - intros v Hv. rewrite D0 by assumption. destruct (N.eqb_spec (vaddr v) src) as [E|E]; [congruence | lia].
    - intros v Hv _. auto.
    - intros v Hv Uv. rewrite HU in Uv by assumption. discriminate.
    - intros v w Hv Hw Uv. rewrite HU in Uv by assumption. discriminate.
    - intros v Hv. rewrite D0 by assumption. destruct (N.eqb (vaddr v) src); lia.
  Qed.

  Lemma closed0 : all_closed dist0 (map (fun _ => false) (gvs g)).
  Proof.
    intros v e w Hv Uv. exfalso. pose proof (pos_ok v Hv) as (_ & _ & L). unfold U in Uv.
    rewrite const_nth in Uv by assumption. discriminate.
  Qed.

  Lemma dijkstra_post : exists dist nhops used, dijkstra g src = Ok (dist, nhops) /\
    post dist nhops used.
  Proof.
    unfold dijkstra. rewrite (p_nr g W), Z.eqb_refl.
    apply loop_ok; [apply inv0 | apply closed0 | now rewrite const_cnt].
  Qed.

  Lemma post_complete : forall dist nhops used, post dist nhops used ->
    forall k v, In v (gvs g) -> walk lk src (vaddr v) k ->
    (D dist v < INT_MAX)%Z /\ (D dist v <= Z.of_nat k)%Z.
  Proof.
    intros dist nhops used P. induction k as [|k IH]; intros v Hv Hw.
    - inversion Hw; subst. destruct (i_src _ _ _ (po_inv _ _ _ P) v Hv) as (-> & _); auto.
      unfold INT_MAX. lia.
    - apply walk_snoc_inv in Hw as (b & Hw & Hl).
      destruct Hl as (u & e & w & H1 & H2 & H3 & H4 & H5 & H6). subst b.
      assert (w = v).
      { apply (same_addr g W); auto. apply deref_iff in H5; tauto. }
      subst w. destruct (IH u H1 Hw) as (L1 & L2).
      assert (Uu : U used u = true).
      { destruct (U used u) eqn:E; auto. apply (po_done _ _ _ P) in E; auto. lia. }
      pose proof (po_closed _ _ _ P u e v H1 Uu H3 H4 H5) as Cl.
      pose proof (i_cnt _ _ _ (po_inv _ _ _ P) u H1 L1) as K.
      pose proof (cnt_le used) as K2. rewrite (i_lu _ _ _ (po_inv _ _ _ P)) in K2. lia.
  Qed.

  Lemma distance_first : forall a b c k, lk a b -> walk lk b c k -> distance lk a c (S k) ->
    distance lk b c k.
  Proof.
    intros a b c k Hl Hw [_ Hd]. split; [assumption|]. intros m Hm.
    assert (walk lk a c (S m)) by (econstructor; eauto). apply Hd in H0. lia.
  Qed.

  (* What dijkstra leaves for the vertex v. *)
  Definition result (dist : list Z) (nhops : list (option N)) (v : vertex) : Prop :=
    (vaddr v = src /\ D dist v = 0%Z /\ H nhops v = None) \/
    (vaddr v <> src /\ D dist v = INT_MAX /\ H nhops v = None /\ ~ reachable lk src (vaddr v)) \/
    (vaddr v <> src /\ exists k w, D dist v = Z.of_nat (S k) /\ (D dist v <= Z.of_nat n)%Z /\
       H nhops v = Some (vid w) /\ In w (gvs g) /\ lk src (vaddr w) /\
       distance lk src (vaddr v) (S k) /\ distance lk (vaddr w) (vaddr v) k).

  Theorem dijkstra_ok : exists dist nhops, dijkstra g src = Ok (dist, nhops) /\
    length dist = n /\ length nhops = n /\
    forall v, In v (gvs g) -> result dist nhops v.
  Proof.
    destruct dijkstra_post as (dist & nhops & used & E & P).
    exists dist, nhops. split; [assumption|].
    pose proof (po_inv _ _ _ P) as I. destruct I as [Ld Ln Lu Imax Isrc Iwalk Ihop Inone Iused Imono Icnt].
    split; [assumption|]. split; [assumption|]. intros v Hv.
    destruct (N.eq_dec (vaddr v) src) as [Es|Es].
    { left. split; auto. }
    right. pose proof (Imax v Hv) as M. destruct (Z.eq_dec (D dist v) INT_MAX) as [Em|Em].
    - left. split; [assumption|]. split; [assumption|]. split; [auto|].
      intros (k & Hw). destruct (post_complete dist nhops used P k v Hv Hw) as (L & _). lia.
    - right. split; [assumption|].
      assert (Lt : (D dist v < INT_MAX)%Z) by lia.
      destruct (Ihop v Hv Lt Es) as (P1 & w & H1 & H2 & H3 & H4).
      assert (Dd : distance lk src (vaddr v) (S (Z.to_nat (D dist v - 1)))).
      { split.
        - econstructor; eauto.
        - intros m Hm. destruct (post_complete dist nhops used P m v Hv Hm) as (_ & L). lia. }
      assert (Ln' : (D dist v <= Z.of_nat n)%Z).
      { pose proof (Icnt v Hv Lt) as K1. pose proof (cnt_le used) as K2. lia. }
      exists (Z.to_nat (D dist v - 1)), w. split; [lia|]. split; [assumption|].
      split; [assumption|]. split; [assumption|]. split; [assumption|]. split; [assumption|].
      eapply distance_first; eauto.
  Qed.

End Dijkstra.
