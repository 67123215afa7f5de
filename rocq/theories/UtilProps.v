(** C109: the helpers for texts, argument lists and socket paths. *)
From Coq Require Import List NArith ZArith Arith Bool String Lia.
From Coq Require Import ZifyBool ZifyNat ZifyN.
From Verif Require Import RibModel StatModel UtilModel StatSpec UtilSpec StatProps.
Import ListNotations.
Local Open Scope nat_scope.
Local Notation length := List.length.

(** ** The width of a number *)
Lemma loop_width : forall fuel n i, (i < 2 ^ N.of_nat fuel)%N ->
  exists d, n_digits_loop fuel n i = n + d /\ width i (S d).
Proof.
  induction fuel as [|f IH]; intros n i H; cbn [n_digits_loop].
  - exists 0. split; [lia|]. change (2 ^ N.of_nat 0)%N with 1%N in H. unfold width.
    change (10 ^ N.of_nat 1)%N with 10%N. split; [lia|split; [lia|left; reflexivity]].
  - destruct (N.ltb_spec 9 i) as [L|L].
    + assert (H2 : (i / 10 < 2 ^ N.of_nat f)%N).
      { rewrite Nat2N.inj_succ, N.pow_succ_r' in H. apply N.div_lt_upper_bound; [lia|]. clear - H. lia. }
      destruct (IH (S n) _ H2) as [d [E [A [_ B]]]]. exists (S d). split; [rewrite E; lia|].
      pose proof (N.div_mod i 10 ltac:(lia)) as DM. pose proof (N.mod_lt i 10 ltac:(lia)) as ML.
      unfold width. rewrite (pow10S (S d)). replace (S (S d) - 1) with (S d) by lia.
      split; [clear - A DM ML; lia|]. split; [lia|]. right.
      destruct B as [B|B].
      * assert (d = 0) by lia. subst d. change (10 ^ N.of_nat 1)%N with 10%N. lia.
      * replace (S d - 1) with d in B by lia. rewrite pow10S. clear - B DM. lia.
    + exists 0. split; [lia|]. unfold width. change (10 ^ N.of_nat 1)%N with 10%N.
      split; [lia|split; [lia|left; reflexivity]].
Qed.
Theorem n_digits_width : forall i, width i (n_digits i).
Proof.
  intro i. destruct (loop_width (N.to_nat (N.size i)) 1 i) as [d [E W]].
  - rewrite N2Nat.id. apply N.size_gt.
  - unfold n_digits. rewrite E. exact W.
Qed.
Print Assumptions n_digits_width.

Lemma dec_width : forall i, (i < 2 ^ 32)%N -> length (dec i) = n_digits i.
Proof.
  intros i H. destruct (n_digits_width i) as [A [B C]]. set (k := n_digits i) in *. clearbody k.
  assert (U : length (dec i) <= k).
  { destruct k as [|k]; [lia|]. apply digits_len. exact A. }
  assert (K : k <= 10).
  { destruct C as [C|C]; [lia|]. destruct (le_lt_dec k 10) as [L|L]; [exact L|]. exfalso.
    assert (10 ^ N.of_nat 10 <= 10 ^ N.of_nat (k - 1))%N by (apply N.pow_le_mono_r; lia).
    assert (2 ^ 32 <= 10 ^ N.of_nat 10)%N by (vm_compute; discriminate). clear - H C H0 H1. lia. }
  destruct C as [C|C].
  - subst k. pose proof (dec_shows i) as S. assert (W : word i) by (unfold word; assert (2 ^ 32 <= 2 ^ 64)%N by (vm_compute; discriminate); lia).
    destruct (S W) as [_ [_ [E|[E _]]]]; [rewrite E in *; cbn in *; lia|]. destruct (dec i); [congruence|cbn in *; lia].
  - pose proof (digits_min 19 i (k - 1) C ltac:(lia)) as M.
    change (digits 19 i) with (dec i) in M. lia.
Qed.

(** ** The last part of a path *)
Lemma strip_spec : forall s dst, let r := strip_loop s dst in
  r <= dst /\ (forall j, r < j -> j <= dst -> char_at s j <> slash) /\ (r = 0 \/ char_at s r = slash).
Proof.
  intros s. induction dst as [|d IH]; cbn [strip_loop].
  - split; [lia|]. split; [intros; lia|left; reflexivity].
  - destruct (N.eqb_spec (char_at s (S d)) slash) as [E|E].
    + split; [lia|]. split; [intros; lia|right; exact E].
    + destruct IH as [A [B C]]. split; [lia|]. split; [|exact C]. intros j J1 J2.
      destruct (Nat.eq_dec j (S d)) as [->|N]; [exact E|apply B; lia].
Qed.
Lemma at_skip : forall d (s : str), In slash (skipn d s) -> exists j, d <= j /\ j < length s /\ char_at s j = slash.
Proof.
  induction d as [|d IH]; intros s I.
  - destruct (In_nth s slash 0%N I) as [j [L E]]. exists j. split; [lia|]. split; [exact L|exact E].
  - destruct s as [|c s]; [destruct I|]. cbn [skipn] in I. destruct (IH s I) as [j [A [B C]]].
    exists (S j). cbn [length]. split; [lia|]. split; [lia|exact C].
Qed.
Theorem path_strip_last : path_strip None = None /\ forall s, exists t, path_strip (Some s) = Some t /\ last_part s t.
Proof.
  split; [reflexivity|]. intro s. eexists. split; [reflexivity|].
  destruct (strip_spec s (length s)) as [A [B C]]. set (r := strip_loop s (length s)) in *. clearbody r.
  destruct (N.eqb_spec (char_at s r) slash) as [E|E].
  - split.
    + intro I. destruct (at_skip _ _ I) as [j [J1 [J2 J3]]]. apply (B j); [lia|lia|exact J3].
    + right. exists (firstn r s). rewrite <- (firstn_skipn r s) at 1. f_equal.
      assert (L : r < length s).
      { destruct (le_lt_dec (length s) r) as [L|L]; [|exact L]. unfold char_at in E. rewrite nth_overflow in E by exact L. discriminate. }
      clear - E L. unfold char_at in E. revert r E L. induction s as [|c s IH]; intros r E L; [cbn in L; lia|].
      destruct r as [|r]; cbn in *; [subst c; reflexivity|]. apply IH; [exact E|lia].
  - destruct C as [C|C]; [|contradiction]. subst r. cbn [skipn]. split; [|left; reflexivity].
    intro I. destruct (In_nth s slash 0%N I) as [j [L J]]. destruct j as [|j]; [exact (E J)|]. apply (B (S j)); [lia|lia|exact J].
Qed.
Print Assumptions path_strip_last.

Example path_strip_met : path_strip (Some (s2l "/usr/bin/oping")) = Some (s2l "oping") /\ path_strip (Some (s2l "oping")) = Some (s2l "oping")
  /\ path_strip (Some (s2l "/usr/bin/")) = Some [] /\ path_strip (Some []) = Some [].
Proof. vm_compute. repeat split. Qed.

(** ** Argument lists *)
Lemma count_ok : forall args rest k, count (map Some args ++ None :: rest) k = Some (k + length args).
Proof.
  induction args as [|s t IH]; intros rest k; cbn [map app count length]; [f_equal; lia|]. rewrite IH. f_equal. lia.
Qed.
Theorem argvlen_counts : argvlen None = Some 0 /\ forall argv args, holds argv args -> argvlen (Some argv) = Some (length args).
Proof. split; [reflexivity|]. intros argv args [rest ->]. cbn [argvlen]. apply (count_ok args rest 0). Qed.
Print Assumptions argvlen_counts.

Lemma free_in : forall k h, In k (live h) -> exists h', free k h = Some h' /\
  (forall x, In x (live h') <-> In x (live h) /\ x <> k) /\ text h' = text h /\ next h' = next h /\ answers h' = answers h /\
  (NoDup (live h) -> NoDup (live h')).
Proof.
  intros k h I. unfold free. assert (E : existsb (Nat.eqb k) (live h) = true).
  { apply existsb_exists. exists k. split; [exact I|apply Nat.eqb_refl]. }
  rewrite E. eexists. split; [reflexivity|]. cbn. split; [|split; [reflexivity|split; [reflexivity|split; [reflexivity|]]]].
  - intro x. rewrite filter_In. destruct (Nat.eqb_spec x k); cbn; intuition congruence.
  - intro ND. apply NoDup_filter. exact ND.
Qed.

Lemma free_cells_ok : forall ks h rest, NoDup ks -> incl ks (live h) ->
  exists h', free_cells (map Ptr ks ++ Null :: rest) h = Some h' /\ (forall x, In x (live h') <-> In x (live h) /\ ~ In x ks) /\
    text h' = text h /\ next h' = next h /\ (NoDup (live h) -> NoDup (live h')).
Proof.
  induction ks as [|k t IH]; intros h rest ND IC; cbn [map app free_cells].
  - exists h. split; [reflexivity|]. split; [intro x; cbn; tauto|]. split; [reflexivity|split; [reflexivity|tauto]].
  - destruct (free_in k h (IC k (or_introl eq_refl))) as [h1 [E [A [B [C [_ D]]]]]]. rewrite E.
    inversion ND as [|? ? KT NT]; subst.
    destruct (IH h1 rest NT) as [h2 [E2 [A2 [B2 [C2 D2]]]]].
    { intros x J. apply A. split; [apply IC; right; exact J|]. intro; subst; contradiction. }
    exists h2. split; [exact E2|]. split; [|split; [congruence|split; [congruence|tauto]]].
    intro x. rewrite A2, A. cbn. intuition congruence.
Qed.

(** What [argvfree] does with a copy. *)
Lemma argvfree_ok : forall a ks h rest, NoDup (a :: ks) -> incl (a :: ks) (live h) ->
  exists h', argvfree (Some (a, map Ptr ks ++ Null :: rest)) h = Some h' /\
    (forall x, In x (live h') <-> In x (live h) /\ ~ In x (a :: ks)) /\ text h' = text h /\ next h' = next h /\
    (NoDup (live h) -> NoDup (live h')).
Proof.
  intros a ks h rest ND IC. inversion ND as [|? ? AK NK]; subst. cbn [argvfree].
  destruct (free_cells_ok ks h rest NK) as [h1 [E [A [B [C D]]]]]; [intros x J; apply IC; right; exact J|]. rewrite E.
  destruct (free_in a h1) as [h2 [E2 [A2 [B2 [C2 [_ D2]]]]]].
  { apply A. split; [apply IC; left; reflexivity|exact AK]. }
  exists h2. split; [exact E2|]. split; [|split; [congruence|split; [congruence|tauto]]].
  intro x. rewrite A2, A. cbn. intuition congruence.
Qed.

Lemma set_mid : forall p v x q, set (length p) v (p ++ x :: q) = p ++ v :: q.
Proof.
  intros p v x q. unfold set. rewrite firstn_app, Nat.sub_diag, firstn_all. cbn [firstn]. rewrite app_nil_r. f_equal. f_equal.
  induction p as [|y p IH]; cbn; [reflexivity|exact IH].
Qed.

(** Where the loop stands after copying [a1]: the state of memory. *)
Definition midway (h0 h : heap) (a : nat) (ks : list nat) (a1 : list str) : Prop :=
  map (text h) ks = a1 /\ NoDup (a :: ks) /\ (forall k, In k (a :: ks) -> ~ In k (live h0)) /\
  (forall k, In k (live h) <-> In k (a :: ks) \/ In k (live h0)) /\
  (forall k, In k (live h0) -> text h k = text h0 k) /\ (forall k, In k (live h) -> k < next h) /\ NoDup (live h).

Lemma dup_ok : forall a2 a1 rest h0 h a ks, midway h0 h a ks a1 ->
  (exists h', dup_loop (length a2) (length a1) (map Some (a1 ++ a2) ++ None :: rest) a (map Ptr ks ++ repeat Junk (length a2 + 1)) h = Ret None h' /\
     (forall k, In k (live h') <-> In k (live h0)) /\ (forall k, In k (live h0) -> text h' k = text h0 k) /\ sane h' /\
     exists n, next h <= n /\ answers h n = false) \/
  (exists h' cs, dup_loop (length a2) (length a1) (map Some (a1 ++ a2) ++ None :: rest) a (map Ptr ks ++ repeat Junk (length a2 + 1)) h = Ret (Some (a, cs)) h' /\
     copy h0 h' (a1 ++ a2) a cs /\ sane h').
Proof.
  induction a2 as [|s a2 IH]; intros a1 rest h0 h a ks M; cbn [length dup_loop];
    (replace (length (map Ptr ks ++ repeat Junk _) <=? length a1) with false
       by (symmetry; apply Nat.leb_gt; rewrite app_length, map_length, repeat_length; destruct M as [<- _]; rewrite map_length; lia)).
  - right. exists h. eexists. split; [reflexivity|]. destruct M as [M1 [M2 [M3 [M4 [M5 [M6 M7]]]]]].
    split; [|split; assumption]. exists ks. rewrite app_nil_r. split; [|tauto].
    cbn [repeat Nat.add]. replace (length a1) with (length (map Ptr ks)) by (rewrite map_length, <- M1, map_length; reflexivity).
    apply set_mid.
  - rewrite map_app, <- app_assoc. rewrite nth_error_app2 by (rewrite map_length; lia). rewrite map_length, Nat.sub_diag.
    cbn [map app nth_error]. rewrite (app_comm_cons (map Some a2) (None :: rest) (Some s)).
    change (Some s :: map Some a2) with (map Some (s :: a2)). rewrite app_assoc, <- map_app.
    pose proof M as [M1 [M2 [M3 [M4 [M5 [M6 M7]]]]]].
    assert (LK : length a1 = length (map Ptr ks)) by (rewrite map_length, <- M1, map_length; reflexivity).
    assert (NN : ~ In (next h) (live h)) by (intro J; apply M6 in J; lia).
    unfold strdup, alloc. destruct (answers h (next h)) eqn:AN.
    + cbn [live text next answers].
      replace (S (length a1)) with (length (a1 ++ [s])) by (rewrite app_length; cbn; lia).
      replace (a1 ++ s :: a2) with ((a1 ++ [s]) ++ a2) by (rewrite <- app_assoc; reflexivity).
      assert (SM : set (length a1) (Ptr (next h)) (map Ptr ks ++ repeat Junk (S (length a2 + 1))) = map Ptr (ks ++ [next h]) ++ repeat Junk (length a2 + 1)).
      { cbn [repeat]. rewrite LK, set_mid, map_app, <- app_assoc. reflexivity. }
      cbn [Nat.add] in *. rewrite SM.
      set (h1 := Heap (next h :: live h) (fun x => if x =? next h then s else text h x) (S (next h)) (answers h)).
      assert (TX : forall k, In k (live h) -> text h1 k = text h k).
      { intros k J. cbn. destruct (Nat.eqb_spec k (next h)); [subst; contradiction|reflexivity]. }
      assert (M' : midway h0 h1 a (ks ++ [next h]) (a1 ++ [s])).
      { split; [|split; [|split; [|split; [|split; [|split]]]]].
        - rewrite map_app. f_equal.
          + rewrite <- M1. apply map_ext_in. intros k J. apply TX. apply M4. left. right. exact J.
          + cbn. rewrite Nat.eqb_refl. reflexivity.
        - apply (NoDup_Add (a := next h) (l := a :: ks)).
          + change (Add (next h) (a :: ks) ((a :: ks) ++ [next h])).
            replace (a :: ks) with ((a :: ks) ++ []) at 1 by apply app_nil_r. apply Add_app.
          + split; [exact M2|]. intro J. apply NN. apply M4. left. exact J.
        - intros k J K. change (In k ((a :: ks) ++ [next h])) in J. apply in_app_or in J. destruct J as [J|[J|[]]]; [exact (M3 k J K)|].
          subst k. apply NN. apply M4. right. exact K.
        - intro k. cbn [live h1]. change (a :: ks ++ [next h]) with ((a :: ks) ++ [next h]). rewrite in_app_iff.
          cbn [In]. rewrite M4. cbn [In]. tauto.
        - intros k J. rewrite TX; [apply M5; exact J|apply M4; right; exact J].
        - intros k J. cbn in *. destruct J as [J|J]; [lia|]. apply M6 in J. lia.
        - cbn. constructor; assumption. }
      destruct (IH (a1 ++ [s]) rest h0 h1 a (ks ++ [next h]) M') as [[h' [E [P [Q [R [n [N1 N2]]]]]]]|[h' [cs [E P]]]].
      * left. exists h'. split; [exact E|]. split; [exact P|]. split; [exact Q|]. split; [exact R|].
        exists n. split; [cbn in N1; lia|exact N2].
      * right. exists h', cs. split; [exact E|exact P].
    + left. cbn [Nat.add repeat]. rewrite LK, set_mid.
      set (h1 := Heap (live h) (text h) (S (next h)) (answers h)).
      destruct (argvfree_ok a ks h1 (repeat Junk (length a2 + 1)) M2) as [h' [E [A [B [C D]]]]].
      { intros k J. cbn. apply M4. left. exact J. }
      rewrite E. exists h'. split; [reflexivity|].
      assert (LV : forall k, In k (live h') <-> In k (live h0)).
      { intro k. rewrite A. cbn [live h1]. rewrite M4. split; [tauto|]. intro K. split; [right; exact K|]. intro J. exact (M3 k J K). }
      split; [exact LV|]. split; [intros k K; rewrite B; cbn; apply M5; exact K|]. split.
      * split; [apply D; exact M7|]. intros k K. rewrite C. cbn. apply A in K. destruct K as [K _]. cbn in K. apply M6 in K. lia.
      * exists (next h). split; [lia|exact AN].
Qed.

(** A copy is made whole, or NULL is given and all that was allocated is freed again; NULL
    only when an allocation fails; never a bad access. *)
Theorem argvdup_whole : forall argv args h, holds argv args -> sane h ->
  exists r h', argvdup (Some argv) h = Ret r h' /\ sane h' /\ (forall k, In k (live h) -> text h' k = text h k) /\
    match r with
    | Some (a, cs) => copy h h' args a cs
    | None => (forall k, In k (live h') <-> In k (live h)) /\ exists n, next h <= n /\ answers h n = false
    end.
Proof.
  intros argv args h [rest ->] [ND LT]. cbn [argvdup]. rewrite count_ok. cbn [Nat.add].
  unfold alloc. destruct (answers h (next h)) eqn:AN.
  - set (h1 := Heap (next h :: live h) (text h) (S (next h)) (answers h)).
    assert (NN : ~ In (next h) (live h)) by (intro J; apply LT in J; lia).
    assert (M : midway h h1 (next h) [] []).
    { split; [reflexivity|]. split; [repeat constructor; intros []|]. split; [intros k [<- | []]; exact NN|].
      split; [intro k; cbn; tauto|]. split; [reflexivity|]. split; [|cbn; constructor; assumption].
      intros k J. cbn in *. destruct J as [J|J]; [lia|]. apply LT in J. lia. }
    destruct (dup_ok args [] rest h h1 (next h) [] M) as [[h' [E [P [Q [R [n [N1 N2]]]]]]]|[h' [cs [E [P R]]]]].
    + exists None, h'. split; [exact E|]. split; [exact R|]. split; [exact Q|]. split; [exact P|]. exists n. cbn in N1, N2. split; [lia|exact N2].
    + exists (Some (next h, cs)), h'. split; [exact E|]. split; [exact R|]. split; [|exact P].
      destruct P as [ks [_ [_ [_ [_ [_ P]]]]]]. exact P.
  - eexists None, _. split; [reflexivity|]. split; [split; [exact ND|intros k J; cbn in *; apply LT in J; lia]|].
    split; [reflexivity|]. split; [cbn; tauto|]. exists (next h). split; [lia|exact AN].
Qed.
Print Assumptions argvdup_whole.

(** Freeing a copy frees all of it, once, and nothing else. *)
Theorem argvdup_free : forall args h h' a cs, copy h h' args a cs -> sane h' ->
  exists h'', argvfree (Some (a, cs)) h' = Some h'' /\ sane h'' /\ (forall k, In k (live h'') <-> In k (live h)) /\
    (forall k, In k (live h) -> text h'' k = text h k).
Proof.
  intros args h h' a cs [ks [-> [_ [ND [NI [LV TX]]]]]] [N1 N2].
  destruct (argvfree_ok a ks h' [] ND) as [h'' [E [A [B [C D]]]]].
  { intros k J. apply LV. left. exact J. }
  exists h''. split; [exact E|]. split; [|split].
  - split; [apply D; exact N1|]. intros k K. rewrite C. apply N2. apply A in K. tauto.
  - intro k. rewrite A, LV. split; [tauto|]. intro K. split; [right; exact K|]. intro J. exact (NI k J K).
  - intros k K. rewrite B. apply TX. exact K.
Qed.
Print Assumptions argvdup_free.
Theorem argv_null : forall h, argvdup None h = Ret None h /\ argvfree None h = Some h.
Proof. intro h. split; reflexivity. Qed.
Print Assumptions argv_null.

Definition h_met (ok : nat -> bool) : heap := Heap [3] (fun _ => s2l "x") 5 ok.
Example argvdup_met :
  sane (h_met (fun _ => true)) /\
  (exists h', argvdup (Some [Some (s2l "oping"); Some (s2l "-l"); None]) (h_met (fun _ => true)) = Ret (Some (5, [Ptr 6; Ptr 7; Null])) h' /\ text h' 7 = s2l "-l") /\
  (exists h', argvdup (Some [Some (s2l "oping"); Some (s2l "-l"); None]) (h_met (fun n => negb (n =? 7))) = Ret None h' /\ live h' = [3]).
Proof.
  split; [|split].
  - split; [repeat constructor; intros []|]. cbn. intros k [<- | []]. lia.
  - eexists. split; reflexivity.
  - eexists. split; reflexivity.
Qed.

(** ** The path of a socket *)
(** For each process id: no write leaves its block, the path names the process, and all
    but the path is freed. *)
Theorem sock_path_fits : forall pid h, (0 <= pid < 2 ^ 31)%Z -> sane h ->
  exists r h', ipcp_sock_path pid h = SRet r h' /\ (forall k, In k (live h) -> text h' k = text h k) /\
    match r with
    | Some f => sock_name (Z.to_N pid) (text h' f) /\ ~ In f (live h) /\ (forall k, In k (live h') <-> k = f \/ In k (live h))
    | None => (forall k, In k (live h') <-> In k (live h)) /\ exists n, next h <= n /\ answers h n = false
    end.
Proof.
  intros pid h P [ND LT]. unfold ipcp_sock_path. rewrite Z.mod_small by (clear - P; change (2 ^ 32)%Z with 4294967296%Z; change (2 ^ 31)%Z with 2147483648%Z in P; lia).
  assert (PB : (Z.to_N pid < 2 ^ 32)%N) by (clear - P; change (2 ^ 32)%N with 4294967296%N; change (2 ^ 31)%Z with 2147483648%Z in P; lia).
  assert (SD : sdec pid = dec (Z.to_N pid)).
  { unfold sdec. destruct (Z.ltb_spec pid 0); [lia|reflexivity]. }
  pose proof (dec_width _ PB) as W. rewrite SD, W. rewrite Nat.ltb_irrefl.
  assert (NN : ~ In (next h) (live h)) by (intro J; apply LT in J; lia).
  unfold alloc at 1. destruct (answers h (next h)) eqn:A1.
  2:{ eexists None, _. split; [reflexivity|]. split; [reflexivity|]. split; [cbn; tauto|]. exists (next h). split; [lia|exact A1]. }
  unfold put_text at 1 2. unfold alloc. cbn [live text next answers]. destruct (answers h (S (next h))) eqn:A2.
  - cbn [text live next answers]. rewrite Nat.eqb_refl. rewrite !app_length, W.
    destruct (Nat.ltb_spec (n_digits (Z.to_N pid) + length prefix + length delim + length suffix + 1)
                (length prefix + (length delim + (n_digits (Z.to_N pid) + length suffix)) + 1)) as [L|_]; [lia|].
    unfold put_text. cbn [text live next answers].
    match goal with |- context [free (next h) ?H] => destruct (free_in (next h) H) as [h' [E [A [B _]]]]; [cbn; tauto|] end.
    rewrite E. exists (Some (S (next h))), h'. split; [reflexivity|]. rewrite B. cbn [text live] in *. split.
    + intros k K. destruct (Nat.eqb_spec k (S (next h))) as [X|X]; [apply LT in K; lia|].
      destruct (Nat.eqb_spec k (next h)) as [Y|Y]; [subst; contradiction|reflexivity].
    + split; [|split].
      * rewrite Nat.eqb_refl. exists (dec (Z.to_N pid)). split.
        { apply dec_shows. unfold word. assert (2 ^ 32 <= 2 ^ 64)%N by (vm_compute; discriminate). lia. }
        replace (s2l "/var/run/ouroboros/ipcp_") with (prefix ++ delim) by reflexivity. rewrite <- app_assoc. reflexivity.
      * intro K. apply LT in K. lia.
      * intro k. rewrite A. cbn [In]. split; [intuition congruence|]. intros [-> | K]; [split; [tauto|lia]|].
        split; [tauto|]. intro; subst; contradiction.
  - match goal with |- context [free (next h) ?H] => destruct (free_in (next h) H) as [h' [E [A [B _]]]]; [cbn; tauto|] end.
    rewrite E. exists None, h'. split; [reflexivity|]. rewrite B. cbn [text live] in *. split.
    + intros k K. destruct (Nat.eqb_spec k (next h)) as [Y|Y]; [subst; contradiction|reflexivity].
    + split; [|exists (S (next h)); split; [lia|exact A2]].
      intro k. rewrite A. cbn [In]. split; [intuition congruence|]. intro K. split; [tauto|]. intro; subst; contradiction.
Qed.
Print Assumptions sock_path_fits.

(** Two processes have two paths. *)
Theorem sock_path_apart : forall p q s, sock_name p s -> sock_name q s -> p = q.
Proof.
  intros p q s [v [[A _] E]] [w [[B _] F]]. rewrite E in F. apply app_inv_head in F. apply app_inv_tail in F. subst w. congruence.
Qed.
Print Assumptions sock_path_apart.

(** The width is that of the number without its sign: far below zero the block is short. *)
Theorem sock_path_negative_short : forall h, answers h (next h) = true -> ipcp_sock_path (- 1000000000) h = SCrash.
Proof. intros h A. unfold ipcp_sock_path, alloc. rewrite A. reflexivity. Qed.
Print Assumptions sock_path_negative_short.

Example sock_path_met : exists h', ipcp_sock_path 4711 (h_met (fun _ => true)) = SRet (Some 6) h' /\
  text h' 6 = s2l "/var/run/ouroboros/ipcp_4711.sock" /\ live h' = [6; 3].
Proof. eexists. vm_compute. repeat split. Qed.
