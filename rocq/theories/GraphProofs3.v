(* The graph counts announcements. *)

From Coq Require Import NArith ZArith List Bool Lia Sorted Arith.
From Coq Require Import ZifyBool ZifyNat ZifyN.
From Verif Require Import GraphModel GraphSpec GraphProofs GraphProofs2.
Import ListNotations.

Definition edge_of (cg : cgraph) (a b : N) : option Z :=
  match assoc cg a with Some es => assoc es b | None => None end.

Definition zdef (o : option Z) : Z := match o with Some n => n | None => 0%Z end.

Record cinv (cg : cgraph) : Prop := CINV
  { c_keys : NoDup (map fst cg);
    c_nd : forall a es, assoc cg a = Some es -> NoDup (map fst es);
    c_sym : forall a b, edge_of cg a b = edge_of cg b a;
    c_pos : forall a b n, edge_of cg a b = Some n -> (1 <= n)%Z;
    c_irr : forall a, edge_of cg a a = None;
    c_ne : forall a, assoc cg a <> Some [] }.

Lemma assoc_in : forall (B : Type) (l : list (N * B)) k y,
  assoc l k = Some y -> In (k, y) l.
Proof.
  induction l as [|[x z] l IH]; cbn; intros k y; [discriminate|].
  destruct (N.eqb_spec x k) as [->|E]; auto. intros H; injection H as ->; auto.
Qed.

Lemma in_assoc : forall (B : Type) (l : list (N * B)) k y,
  NoDup (map fst l) -> In (k, y) l -> assoc l k = Some y.
Proof.
  induction l as [|[x z] l IH]; cbn; intros k y Hnd; [intros []|].
  inversion Hnd as [|? ? Hn Hnd']; subst. intros [H|H].
  - injection H as -> ->. now rewrite N.eqb_refl.
  - destruct (N.eqb_spec x k) as [->|E]; auto.
    exfalso. apply Hn. now apply in_map with (f := fst) in H.
Qed.

Lemma assoc_none_keys : forall (B : Type) (l : list (N * B)) k,
  assoc l k = None <-> ~ In k (map fst l).
Proof.
  intros B l k. rewrite assoc_none_in. split.
  - intros H Hi. apply in_map_iff in Hi as ([x y] & <- & Hi). now apply (H y).
  - intros H y Hi. apply H. now apply in_map with (f := fst) in Hi.
Qed.

Lemma updv_keys : forall a f cg, map fst (c_updv a f cg) = map fst cg.
Proof.
  intros. unfold c_updv. rewrite map_map. apply map_ext. intros [x es]. cbn.
  destruct (N.eqb x a); reflexivity.
Qed.

Lemma assoc_updv : forall a f cg x,
  assoc (c_updv a f cg) x =
  if N.eqb x a then option_map f (assoc cg x) else assoc cg x.
Proof.
  intros a f cg x. induction cg as [|[y es] cg IH]; cbn.
  - now destruct (N.eqb x a).
  - destruct (N.eqb_spec y a) as [->|E]; cbn.
    + destruct (N.eqb_spec a x) as [->|E2].
      * now rewrite N.eqb_refl.
      * exact IH.
    + destruct (N.eqb_spec y x) as [->|E2].
      * destruct (N.eqb_spec x a); [congruence | reflexivity].
      * exact IH.
Qed.

Lemma edge_updv : forall a f cg x y,
  edge_of (c_updv a f cg) x y =
  if N.eqb x a then match assoc cg x with Some es => assoc (f es) y | None => None end
  else edge_of cg x y.
Proof.
  intros. unfold edge_of. rewrite assoc_updv. destruct (N.eqb x a); [|reflexivity].
  destruct (assoc cg x); reflexivity.
Qed.

Lemma assoc_ins : forall a cg x, assoc cg a = None ->
  assoc (c_ins a cg) x = if N.eqb x a then Some [] else assoc cg x.
Proof.
  intros a cg x. induction cg as [|[y es] cg IH]; cbn; intros H.
  - rewrite (N.eqb_sym a x). reflexivity.
  - destruct (N.eqb_spec y a) as [->|E]; [discriminate|].
    destruct (N.ltb a y); cbn.
    + rewrite (N.eqb_sym a x). destruct (N.eqb x a); reflexivity.
    + destruct (N.eqb_spec y x) as [->|E2].
      * destruct (N.eqb_spec x a); [congruence | reflexivity].
      * now apply IH.
Qed.

Lemma ins_keys : forall a cg x, In x (map fst (c_ins a cg)) <-> x = a \/ In x (map fst cg).
Proof.
  intros a cg x. induction cg as [|[y es] cg IH]; cbn.
  - intuition.
  - destruct (N.ltb a y); cbn; [intuition|]. rewrite IH. intuition.
Qed.

Lemma ins_nodup : forall a cg, NoDup (map fst cg) -> assoc cg a = None -> NoDup (map fst (c_ins a cg)).
Proof.
  intros a cg Hnd Hn. apply assoc_none_keys in Hn. induction cg as [|[y es] cg IH]; cbn.
  - constructor; auto.
  - cbn in Hnd, Hn. inversion Hnd as [|? ? H1 H2]; subst.
    destruct (N.ltb a y); cbn.
    + constructor; auto.
    + constructor.
      * rewrite ins_keys. intros [->|H]; auto.
      * apply IH; auto.
Qed.

Lemma assoc_getv : forall a cg x,
  assoc (c_getv a cg) x =
  match assoc cg x with Some es => Some es | None => if N.eqb x a then Some [] else None end.
Proof.
  intros a cg x. unfold c_getv. destruct (assoc cg a) as [es|] eqn:E.
  - destruct (N.eqb_spec x a) as [->|E2]; [now rewrite E|]. destruct (assoc cg x); reflexivity.
  - rewrite assoc_ins by assumption. destruct (N.eqb_spec x a) as [->|E2].
    + now rewrite E.
    + destruct (assoc cg x); reflexivity.
Qed.

Lemma edge_getv : forall a cg x y, edge_of (c_getv a cg) x y = edge_of cg x y.
Proof.
  intros. unfold edge_of. rewrite assoc_getv.
  destruct (assoc cg x); [reflexivity|]. destruct (N.eqb x a); reflexivity.
Qed.

Lemma assoc_ann : forall b d es y,
  assoc (c_ann b d es) y = if N.eqb y b then option_map (fun n => n + d)%Z (assoc es y) else assoc es y.
Proof.
  intros b d es y. induction es as [|[x n] es IH]; cbn.
  - now destruct (N.eqb y b).
  - destruct (N.eqb_spec x b) as [->|E]; cbn.
    + destruct (N.eqb_spec b y) as [->|E2]; [now rewrite N.eqb_refl|].
      destruct (N.eqb_spec y b); [congruence | reflexivity].
    + destruct (N.eqb_spec x y) as [->|E2].
      * destruct (N.eqb_spec y b); [congruence | reflexivity].
      * exact IH.
Qed.

Lemma ann_keys : forall b d es, map fst (c_ann b d es) = map fst es.
Proof.
  intros b d es. induction es as [|[x n] es IH]; [reflexivity|]. cbn.
  destruct (N.eqb x b); cbn; congruence.
Qed.

Lemma assoc_announce : forall b es y,
  assoc (c_announce b es) y = if N.eqb y b then Some (zdef (assoc es y) + 1)%Z else assoc es y.
Proof.
  intros b es y. unfold c_announce. destruct (assoc es b) as [n|] eqn:E.
  - rewrite assoc_ann. destruct (N.eqb_spec y b) as [->|E2]; [|reflexivity].
    rewrite E. reflexivity.
  - cbn. rewrite (N.eqb_sym b y). destruct (N.eqb_spec y b) as [->|E2]; [|reflexivity].
    rewrite E. reflexivity.
Qed.

Lemma announce_nodup : forall b es, NoDup (map fst es) -> NoDup (map fst (c_announce b es)).
Proof.
  intros b es H. unfold c_announce. destruct (assoc es b) as [n|] eqn:E.
  - now rewrite ann_keys.
  - cbn. constructor; auto. now apply assoc_none_keys.
Qed.

Lemma announce_ne : forall b es, c_announce b es <> [].
Proof.
  intros b es. unfold c_announce. destruct (assoc es b) as [n|] eqn:E; [|discriminate].
  destruct es as [|[x k] es]; [discriminate|]. cbn. destruct (N.eqb x b); discriminate.
Qed.

Lemma rem_keys : forall b es x, In x (map fst (c_rem b es)) -> In x (map fst es).
Proof.
  intros b es x. induction es as [|[y n] es IH]; cbn; auto.
  destruct (N.eqb y b); cbn; auto. intros [H|H]; auto.
Qed.

Lemma rem_nodup : forall b es, NoDup (map fst es) -> NoDup (map fst (c_rem b es)).
Proof.
  intros b es. induction es as [|[y n] es IH]; cbn; auto. intros H.
  inversion H as [|? ? H1 H2]; subst. destruct (N.eqb y b); auto. cbn. constructor; auto.
  intros Hi. apply H1. now apply rem_keys in Hi.
Qed.

Lemma assoc_rem : forall b es y, NoDup (map fst es) ->
  assoc (c_rem b es) y = if N.eqb y b then None else assoc es y.
Proof.
  intros b es y. induction es as [|[x n] es IH]; cbn; intros H.
  - now destruct (N.eqb y b).
  - inversion H as [|? ? H1 H2]; subst. destruct (N.eqb_spec x b) as [->|E]; cbn.
    + destruct (N.eqb_spec y b) as [E2|E2].
      * rewrite E2. now apply assoc_none_keys.
      * destruct (N.eqb_spec b y); [congruence | reflexivity].
    + destruct (N.eqb_spec x y) as [->|E2].
      * destruct (N.eqb_spec y b); [congruence | reflexivity].
      * now apply IH.
Qed.

Definition dec1 (o : option Z) : option Z :=
  match o with
  | Some n => if Z.eqb (n - 1) 0 then None else Some (n - 1)%Z
  | None => None
  end.

Lemma assoc_withdraw : forall b es y, NoDup (map fst es) ->
  assoc (c_withdraw b es) y = if N.eqb y b then dec1 (assoc es y) else assoc es y.
Proof.
  intros b es y H. unfold c_withdraw. destruct (assoc es b) as [n|] eqn:E.
  - destruct (Z.eqb (n - 1) 0) eqn:E1.
    + rewrite assoc_rem by assumption. destruct (N.eqb_spec y b) as [->|E2]; [|reflexivity].
      rewrite E. cbn. now rewrite E1.
    + rewrite assoc_ann. destruct (N.eqb_spec y b) as [->|E2]; [|reflexivity].
      rewrite E. cbn. now rewrite E1.
  - destruct (N.eqb_spec y b) as [->|E2]; [|reflexivity]. now rewrite E.
Qed.

Lemma withdraw_nodup : forall b es, NoDup (map fst es) -> NoDup (map fst (c_withdraw b es)).
Proof.
  intros b es H. unfold c_withdraw. destruct (assoc es b) as [n|]; auto.
  destruct (Z.eqb (n - 1) 0); [now apply rem_nodup | now rewrite ann_keys].
Qed.

Lemma filter_assoc : forall (a : N) (cg : cgraph) x,
  assoc (filter (fun p => negb (N.eqb (fst p) a)) cg) x = if N.eqb x a then None else assoc cg x.
Proof.
  intros a cg x. induction cg as [|[y es] cg IH]; cbn.
  - now destruct (N.eqb x a).
  - destruct (N.eqb_spec y a) as [->|E]; cbn.
    + rewrite IH. destruct (N.eqb_spec x a) as [E2|E2]; [reflexivity|].
      destruct (N.eqb_spec a x); [congruence | reflexivity].
    + destruct (N.eqb_spec y x) as [->|E2]; [|exact IH].
      destruct (N.eqb_spec x a); [congruence | reflexivity].
Qed.

Lemma filter_nodup : forall (a : N) (cg : cgraph), NoDup (map fst cg) ->
  NoDup (map fst (filter (fun p => negb (N.eqb (fst p) a)) cg)).
Proof.
  intros a cg. induction cg as [|[y es] cg IH]; cbn; auto. intros H.
  inversion H as [|? ? H1 H2]; subst. destruct (N.eqb y a); cbn; auto.
  constructor; auto. intros Hi. apply H1. apply in_map_iff in Hi as (p & <- & Hp).
  apply filter_In in Hp as (Hp & _). now apply in_map.
Qed.

Lemma assoc_reap : forall a cg x,
  assoc (c_reap a cg) x =
  if N.eqb x a then match assoc cg x with Some [] => None | o => o end else assoc cg x.
Proof.
  intros a cg x. unfold c_reap. destruct (assoc cg a) as [[|e es]|] eqn:E.
  - rewrite filter_assoc. destruct (N.eqb_spec x a) as [->|E2]; [|reflexivity]. now rewrite E.
  - destruct (N.eqb_spec x a) as [->|E2]; [|reflexivity]. now rewrite E.
  - destruct (N.eqb_spec x a) as [->|E2]; [|reflexivity]. now rewrite E.
Qed.

Lemma edge_reap : forall a cg x y, edge_of (c_reap a cg) x y = edge_of cg x y.
Proof.
  intros. unfold edge_of. rewrite assoc_reap. destruct (N.eqb x a); [|reflexivity].
  destruct (assoc cg x) as [[|]|]; reflexivity.
Qed.

Lemma reap_nodup : forall a cg, NoDup (map fst cg) -> NoDup (map fst (c_reap a cg)).
Proof.
  intros. unfold c_reap. destruct (assoc cg a) as [[|]|]; auto. now apply filter_nodup.
Qed.

(* ---- Update ---- *)

Lemma same_link_cases : forall s d x y, s <> d ->
  same_link s d x y = true <-> (x = s /\ y = d) \/ (x = d /\ y = s).
Proof. intros. unfold same_link. lia. Qed.

Lemma update_edge : forall s d cg x y, s <> d -> cinv cg ->
  edge_of (c_update s d cg) x y =
  if same_link s d x y then Some (zdef (edge_of cg x y) + 1)%Z else edge_of cg x y.
Proof.
  intros s d cg x y Hsd I. unfold c_update.
  rewrite edge_updv. rewrite assoc_updv, edge_updv. rewrite !assoc_getv, !edge_getv.
  unfold same_link, edge_of.
  destruct (N.eqb_spec x d) as [->|E1]; cbn [andb orb].
  - destruct (N.eqb_spec d s) as [E|_]; [congruence|].
    destruct (N.eqb_spec s d) as [E|_]; [congruence|]. cbn [andb orb].
    rewrite !N.eqb_refl. rewrite andb_true_r.
    destruct (assoc cg d) as [es|]; rewrite assoc_announce;
      rewrite (N.eqb_sym y s); destruct (N.eqb_spec s y) as [->|E2]; reflexivity.
  - destruct (N.eqb_spec x s) as [->|E2].
    + rewrite N.eqb_refl. cbn [andb orb].
      destruct (N.eqb_spec d s) as [E|_]; [congruence|]. rewrite andb_false_r, orb_false_r.
      destruct (assoc cg s) as [es|]; rewrite assoc_announce;
        rewrite (N.eqb_sym y d); destruct (N.eqb_spec d y) as [->|E3]; reflexivity.
    + destruct (N.eqb_spec s x); [congruence|]. destruct (N.eqb_spec d x); [congruence|].
      rewrite andb_false_r. reflexivity.
Qed.

Lemma update_cinv : forall s d cg, s <> d -> cinv cg -> cinv (c_update s d cg).
Proof.
  intros s d cg Hsd I.
  assert (Hk : NoDup (map fst (c_update s d cg))).
  { unfold c_update. rewrite !updv_keys.
    assert (forall a c, NoDup (map fst c) -> NoDup (map fst (c_getv a c))).
    { intros a c H. unfold c_getv. destruct (assoc c a) eqn:E; auto. now apply ins_nodup. }
    auto using (c_keys cg I). }
  assert (Has : forall a es, assoc (c_update s d cg) a = Some es ->
     NoDup (map fst es) /\ es <> []).
  { intros a es. unfold c_update. rewrite !assoc_updv, !assoc_getv.
    assert (G : forall b es0, NoDup (map fst es0) ->
              NoDup (map fst (c_announce b es0)) /\ c_announce b es0 <> []).
    { intros b es0 H. split; [now apply announce_nodup | apply announce_ne]. }
    destruct (N.eqb_spec a d) as [E1|E1].
    - destruct (N.eqb_spec a s) as [E|_]; [congruence|].
      intros H. destruct (assoc cg a) as [es0|] eqn:E0; cbn [option_map] in H;
        apply (f_equal (fun o => match o with Some x => x | None => [] end)) in H;
        cbn beta iota in H; subst es; apply G.
      + now apply (c_nd cg I a).
      + constructor.
    - destruct (N.eqb_spec a s) as [E2|E2].
      + intros H. destruct (assoc cg a) as [es0|] eqn:E0; cbn [option_map] in H;
        apply (f_equal (fun o => match o with Some x => x | None => [] end)) in H;
        cbn beta iota in H; subst es; apply G.
        * now apply (c_nd cg I a).
        * constructor.
      + destruct (assoc cg a) as [es0|] eqn:E0; [|discriminate].
        intros H; injection H as <-. split; [now apply (c_nd cg I a)|].
        intros ->. now apply (c_ne cg I a). }
  constructor.
  - assumption.
  - intros a es H. now apply Has in H.
  - intros a b. rewrite !update_edge by assumption.
    assert (same_link s d a b = same_link s d b a) as <- by (unfold same_link; lia).
    now rewrite (c_sym cg I a b).
  - intros a b n. rewrite update_edge by assumption.
    destruct (same_link s d a b).
    + intros H; injection H as <-. destruct (edge_of cg a b) as [m|] eqn:E; cbn; [|lia].
      apply (c_pos cg I) in E. lia.
    + apply (c_pos cg I).
  - intros a. rewrite update_edge by assumption.
    assert (same_link s d a a = false) as -> by (unfold same_link; lia).
    apply (c_irr cg I).
  - intros a H. now apply Has in H.
Qed.

(* ---- Delete ---- *)

Lemma wd_edge : forall s d cg x y, s <> d -> cinv cg ->
  edge_of (c_updv d (c_withdraw s) (c_updv s (c_withdraw d) cg)) x y =
  if same_link s d x y then dec1 (edge_of cg x y) else edge_of cg x y.
Proof.
  intros s d cg x y Hsd I.
  rewrite edge_updv. rewrite assoc_updv, edge_updv.
  unfold same_link, edge_of.
  destruct (N.eqb_spec x d) as [->|E1]; cbn [andb orb].
  - destruct (N.eqb_spec d s) as [E|_]; [congruence|].
    destruct (N.eqb_spec s d) as [E|_]; [congruence|]. cbn [andb orb].
    rewrite !N.eqb_refl. rewrite andb_true_r.
    destruct (assoc cg d) as [es|] eqn:Es; [|now destruct (N.eqb s y)].
    rewrite assoc_withdraw by now apply (c_nd cg I d).
    rewrite (N.eqb_sym y s); destruct (N.eqb_spec s y) as [->|E2]; reflexivity.
  - destruct (N.eqb_spec x s) as [->|E2].
    + rewrite N.eqb_refl. cbn [andb orb].
      destruct (N.eqb_spec d s) as [E|_]; [congruence|]. rewrite andb_false_r, orb_false_r.
      destruct (assoc cg s) as [es|] eqn:Es; [|now destruct (N.eqb d y)].
      rewrite assoc_withdraw by now apply (c_nd cg I s).
      rewrite (N.eqb_sym y d); destruct (N.eqb_spec d y) as [->|E3]; reflexivity.
    + destruct (N.eqb_spec s x); [congruence|]. destruct (N.eqb_spec d x); [congruence|].
      rewrite andb_false_r. reflexivity.
Qed.

Lemma del_edge : forall s d cg x y, s <> d -> cinv cg ->
  edge_of (c_del s d cg) x y =
  if same_link s d x y then dec1 (edge_of cg x y) else edge_of cg x y.
Proof. intros. unfold c_del. rewrite !edge_reap. now apply wd_edge. Qed.

Lemma same_link_sym : forall s d x y, same_link s d x y = same_link s d y x.
Proof. intros. unfold same_link. lia. Qed.

Lemma del_cinv : forall s d cg, s <> d -> cinv cg -> cinv (c_del s d cg).
Proof.
  intros s d cg Hsd I.
  constructor.
  - unfold c_del. apply reap_nodup, reap_nodup. rewrite !updv_keys. apply (c_keys cg I).
  - intros a es. unfold c_del. rewrite !assoc_reap, !assoc_updv. intros H.
    assert (G : exists es0, assoc cg a = Some es0 /\
              (es = es0 \/ es = c_withdraw s es0 \/ es = c_withdraw d es0)).
    { destruct (N.eqb_spec a d) as [->|E1]; [destruct (N.eqb_spec d s); [congruence|]|
        destruct (N.eqb_spec a s) as [->|E2]];
        destruct (assoc cg _) as [es0|] eqn:E0; try discriminate; cbn in H;
        exists es0; (split; [reflexivity|]).
      - destruct (c_withdraw s es0) eqn:Ew; [discriminate|]. right; left. congruence.
      - destruct (c_withdraw d es0) eqn:Ew; [discriminate|]. right; right. congruence.
      - left. congruence. }
    destruct G as (es0 & E0 & [-> | [-> | ->]]); try apply withdraw_nodup; now apply (c_nd cg I a).
  - intros a b. rewrite !del_edge by assumption.
    rewrite (same_link_sym s d a b), (c_sym cg I a b). reflexivity.
  - intros a b n. rewrite del_edge by assumption. destruct (same_link s d a b).
    + destruct (edge_of cg a b) as [m|] eqn:E; cbn; [|discriminate].
      apply (c_pos cg I) in E. destruct (Z.eqb_spec (m - 1) 0); [discriminate|].
      intros H; injection H as <-. lia.
    + apply (c_pos cg I).
  - intros a. rewrite del_edge by assumption.
    assert (same_link s d a a = false) as -> by (unfold same_link; lia).
    apply (c_irr cg I).
  - intros a. unfold c_del. rewrite !assoc_reap, !assoc_updv.
    pose proof (c_ne cg I a) as Hne.
    assert (G : forall o : option (list (N * Z)),
              match o with Some (p :: l) => Some (p :: l) | _ => None end <> Some []).
    { intros [[|]|]; discriminate. }
    destruct (N.eqb_spec a d) as [->|E1]; [apply G|].
    destruct (N.eqb_spec a s) as [->|E2]; [apply G | assumption].
Qed.

(* ---- The operations of the model ---- *)

Definition ginv (g : graph) : Prop := wfp g /\ cinv (clean g).

Definition gedge (g : graph) (a b : N) : option Z := edge_of (clean g) a b.

Lemma clean_keys_nodup : forall g, wfp g -> NoDup (map fst (clean g)).
Proof. intros g W. rewrite clean_keys. apply sorted_nodup, (p_sorted g W). Qed.

Lemma not_pointed_sym : forall cg a, NoDup (map fst cg) ->
  (forall x y, edge_of cg x y = edge_of cg y x) ->
  assoc cg a = Some [] -> not_pointed cg a.
Proof.
  intros cg a Hk Hs Ha x es Hin Hne.
  assert (E : edge_of cg x a = assoc es a).
  { unfold edge_of. now rewrite (in_assoc _ _ _ _ Hk Hin). }
  rewrite <- E, Hs. unfold edge_of. now rewrite Ha.
Qed.

Lemma update_ginv : forall g s d, ginv g -> s <> d ->
  exists g', graph_update_edge g s d = Ok g' /\ ginv g' /\ clean g' = c_update s d (clean g).
Proof.
  intros g s d [W I] Hsd. destruct (update_refines g s d W) as (g' & E & W' & C').
  exists g'. split; [assumption|]. split; [|assumption]. split; [assumption|].
  rewrite C'. now apply update_cinv.
Qed.

Lemma del_ginv : forall g s d, ginv g -> s <> d ->
  match gedge g s d with
  | None => graph_del_edge g s d = Err
  | Some _ => exists g', graph_del_edge g s d = Ok g' /\ ginv g' /\ clean g' = c_del s d (clean g)
  end.
Proof.
  intros g s d [W I] Hsd. unfold gedge, graph_del_edge.
  destruct (find_vertex g s) as [v|] eqn:Fv.
  2:{ unfold edge_of. rewrite clean_assoc, Fv by assumption. reflexivity. }
  destruct (find_vertex g d) as [nb|] eqn:Fn.
  2:{ rewrite (c_sym _ I). unfold edge_of. rewrite clean_assoc, Fn by assumption. reflexivity. }
  pose proof (proj1 (find_vertex_iff g W s v) Fv) as (Hv & Av).
  pose proof (proj1 (find_vertex_iff g W d nb) Fn) as (Hn & An).
  assert (Ev : assoc (clean g) s = Some (clean_edges g (vedges v)))
    by (rewrite clean_assoc, Fv by assumption; reflexivity).
  assert (En : assoc (clean g) d = Some (clean_edges g (vedges nb)))
    by (rewrite clean_assoc, Fn by assumption; reflexivity).
  rewrite (find_edge_ok g W) by (intros e He; now apply (p_nb g W v)). cbn [rbind].
  assert (E1 : edge_of (clean g) s d = option_map eann
      (find (fun e => N.eqb (addr_of g (enb e)) d) (vedges v))).
  { unfold edge_of. rewrite Ev. symmetry. apply clean_find. }
  assert (E2 : edge_of (clean g) d s = option_map eann
      (find (fun e => N.eqb (addr_of g (enb e)) s) (vedges nb))).
  { unfold edge_of. rewrite En. symmetry. apply clean_find. }
  destruct (find (fun e => N.eqb (addr_of g (enb e)) d) (vedges v)) as [e|] eqn:Fe.
  2:{ rewrite E1. reflexivity. }
  cbn [option_map] in E1. rewrite E1.
  rewrite (find_edge_ok g W) by (intros e0 He; now apply (p_nb g W nb)). cbn [rbind].
  rewrite (c_sym _ I) in E2. rewrite E1 in E2.
  destruct (find (fun e => N.eqb (addr_of g (enb e)) s) (vedges nb)) as [ne|] eqn:Fne; [|discriminate].
  apply find_some in Fe as (Hei & Hea). apply N.eqb_eq in Hea.
  apply find_some in Fne as (Hni & Hna). apply N.eqb_eq in Hna.
  assert (Iv : In (vid v) (ids g)) by now apply in_map.
  assert (In_ : In (vid nb) (ids g)) by now apply in_map.
  assert (Ie : enb e = vid nb).
  { apply (addr_of_inj g W); auto. { now apply (p_nb g W v). } rewrite addr_of_vid by assumption. congruence. }
  assert (Ine : enb ne = vid v).
  { apply (addr_of_inj g W); auto. { now apply (p_nb g W nb). } rewrite addr_of_vid by assumption. congruence. }
  rewrite Ie, Ine.
  assert (Aav : addr_of g (vid v) = s) by (rewrite addr_of_vid; auto).
  assert (Aan : addr_of g (vid nb) = d) by (rewrite addr_of_vid; auto).
  destruct (withdraw_ok g (vid v) (vid nb) (clean_edges g (vedges v)) W Iv In_)
    as (g1 & D1 & W1 & I1 & A1 & C1).
  { now rewrite Aav. }
  { rewrite Aan. exists (eann e). unfold edge_of in E1. rewrite Ev in E1. exact E1. }
  rewrite D1. cbn [rbind]. rewrite Aav, Aan in C1.
  assert (Edn : edge_of (clean g1) d s = Some (eann ne)).
  { rewrite C1, edge_updv. destruct (N.eqb_spec d s); [congruence|]. rewrite (c_sym _ I), E1. exact E2. }
  unfold edge_of in Edn. destruct (assoc (clean g1) d) as [n1|] eqn:En1; [|discriminate].
  destruct (withdraw_ok g1 (vid nb) (vid v) n1 W1) as (g2 & D2 & W2 & I2 & A2 & C2).
  { now rewrite I1. } { now rewrite I1. } { now rewrite A1, Aan. }
  { rewrite A1, Aav. eauto. }
  rewrite D2. cbn [rbind]. rewrite !A1, Aav, Aan in C2. rewrite C1 in C2.
  assert (S2 : forall x y, edge_of (clean g2) x y = edge_of (clean g2) y x).
  { intros x y. rewrite C2, !wd_edge by assumption.
    rewrite (same_link_sym s d x y), (c_sym _ I x y). reflexivity. }
  destruct (reap_ok g2 (vid v) W2) as (g3 & D3 & W3 & I3 & A3 & C3).
  { now rewrite I2, I1. }
  { apply not_pointed_sym; auto. now apply clean_keys_nodup. }
  rewrite D3. cbn [rbind]. rewrite A2, A1, Aav in C3.
  assert (Hvn : vid nb <> vid v) by (intros Hq; rewrite <- Hq in Aav; congruence).
  destruct (reap_ok g3 (vid nb) W3) as (g4 & D4 & W4 & I4 & A4 & C4).
  { apply I3; auto. now rewrite I2, I1. }
  { apply not_pointed_sym.
    - now apply clean_keys_nodup.
    - intros x y. rewrite C3, !edge_reap. apply S2. }
  rewrite D4. exists g4. split; [reflexivity|].
  rewrite (A3 (vid nb)), A2, A1, Aan in C4 by assumption.
  assert (C' : clean g4 = c_del s d (clean g)) by (rewrite C4, C3, C2; reflexivity).
  split; [|assumption]. split; [assumption|]. rewrite C'. now apply del_cinv.
Qed.

Lemma ginv_create : ginv graph_create.
Proof.
  split.
  - constructor; cbn.
    + constructor.
    + constructor.
    + intros v [].
    + intros [|i] v H; discriminate.
    + reflexivity.
    + intros v e [].
  - constructor; cbn; auto.
    + constructor.
    + intros a es H; discriminate.
    + intros a b n H; discriminate.
    + intros a H; discriminate.
Qed.
