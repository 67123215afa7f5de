(** C100: the program that is bound is the one PATH says. *)
From Coq Require Import NArith ZArith List Bool Lia.
From Coq Require Import ZifyBool ZifyNat ZifyN.
From Verif Require Import WireModel PathModel PathSpec.
Import ListNotations.
Local Open Scope N_scope.

(** * Strings *)
Lemma scan_dir : forall d l c, ~ In 58 d -> ~ In 0 d -> c = 0 \/ c = 58 -> scan (d ++ c :: l) = (d, c :: l).
Proof.
  induction d as [|x d IH]; intros l c A B C; cbn [app scan].
  - destruct C as [-> | ->]; reflexivity.
  - assert (x <> 58) by (intros ->; apply A; left; reflexivity). assert (x <> 0) by (intros ->; apply B; left; reflexivity).
    destruct (N.eqb_spec x 0); [contradiction|]. destruct (N.eqb_spec x 58); [contradiction|]. cbn [orb].
    rewrite IH; [reflexivity|intros I; apply A; right; exact I|intros I; apply B; right; exact I|exact C].
Qed.
Lemma cstr_app0 : forall p l, ~ In 0 p -> cstr (p ++ 0 :: l) = p.
Proof.
  induction p as [|x p IH]; intros l A; [reflexivity|]. cbn [app cstr]. destruct (N.eqb_spec x 0) as [->|_]; [elim A; left; reflexivity|].
  rewrite IH; [reflexivity|intros I; apply A; right; exact I].
Qed.
Lemma join_cons : forall d e l, join (d :: e :: l) = d ++ 58 :: join (e :: l).
Proof. reflexivity. Qed.
Lemma in_join : forall l d c, In d l -> In c d -> In c (join l).
Proof.
  induction l as [|x l IH]; intros d c D C; [elim D|]. destruct l as [|y l].
  - destruct D as [->|[]]. exact C.
  - rewrite join_cons. apply in_or_app. destruct D as [->|D]; [left; exact C|right; right; apply (IH d); assumption].
Qed.
Lemma abs_dec : forall c d, (c =? 47) = true <-> absolute (c :: d).
Proof.
  intros c d. rewrite N.eqb_eq. split; [intros ->; eexists; reflexivity|intros (r & E); injection E as -> _; reflexivity].
Qed.

(** Every path is made of directories in one way. *)
Lemma dirs_exist : forall p, exists l, directories p l.
Proof.
  induction p as [|c p (l & N & J & F)].
  - exists [[]]. split; [discriminate|]. split; [reflexivity|]. intros d [<-|[]] [].
  - destruct l as [|d l]; [elim N; reflexivity|]. destruct (N.eqb_spec c 58) as [->|C].
    + exists ([] :: d :: l). split; [discriminate|]. split; [rewrite join_cons, J; reflexivity|]. intros x [<-|X]; [intros []|apply F, X].
    + exists ((c :: d) :: l). split; [discriminate|]. split.
      * destruct l; [cbn [join] in *; rewrite J; reflexivity|]. rewrite join_cons in *. rewrite <- J. reflexivity.
      * intros x [<-|X]; [|apply F; right; exact X]. intros [E|E]; [exact (C E)|]. apply (F d); [left; reflexivity|exact E].
Qed.
Lemma split_one : forall (d e : str) a b, ~ In 58 d -> ~ In 58 e -> d ++ 58 :: a = e ++ 58 :: b -> d = e /\ a = b.
Proof.
  induction d as [|x d IH]; intros [|y e] a b D E H.
  - injection H as ->. split; reflexivity.
  - injection H as <- _. elim E. left. reflexivity.
  - injection H as -> _. elim D. left. reflexivity.
  - injection H as -> H. destruct (IH e a b) as (-> & ->); [intros I; apply D; right; exact I|intros I; apply E; right; exact I|exact H|].
    split; reflexivity.
Qed.
Lemma dirs_unique : forall l l' p, directories p l -> directories p l' -> l = l'.
Proof.
  induction l as [|d l IH]; intros l' p (N & J & F) (N' & J' & F'); [elim N; reflexivity|].
  destruct l' as [|d' l']; [elim N'; reflexivity|].
  assert (D : ~ In 58 d) by (apply F; left; reflexivity). assert (D' : ~ In 58 d') by (apply F'; left; reflexivity).
  destruct l as [|e l], l' as [|e' l'].
  - cbn [join] in *. congruence.
  - rewrite join_cons in J'. cbn [join] in J. elim D. rewrite J, <- J'. apply in_or_app. right. left. reflexivity.
  - rewrite join_cons in J. cbn [join] in J'. elim D'. rewrite J', <- J. apply in_or_app. right. left. reflexivity.
  - rewrite join_cons in *. rewrite <- J' in J. destruct (split_one _ _ _ _ D D' J) as (-> & E). f_equal.
    apply (IH _ (join (e :: l))).
    + split; [discriminate|]. split; [reflexivity|]. intros x X. apply F. right. exact X.
    + split; [discriminate|]. split; [symmetry; exact E|]. intros x X. apply F'. right. exact X.
Qed.

(** An answer is the only one. *)
Lemma passed_app : forall fs prog a b, passed fs prog (a ++ b) -> passed fs prog a /\ passed fs prog b.
Proof. intros fs prog a b H. split; intros d D; apply H, in_or_app; [left|right]; exact D. Qed.
Lemma first_unique : forall fs prog l1 d l2 m1 e m2, l1 ++ d :: l2 = m1 ++ e :: m2 -> passed fs prog l1 -> passed fs prog m1 ->
  ~ (absolute d /\ ~ executable fs (file d prog)) -> ~ (absolute e /\ ~ executable fs (file e prog)) -> l1 = m1 /\ d = e /\ l2 = m2.
Proof.
  intros fs prog. induction l1 as [|x l1 IH]; intros d l2 [|y m1] e m2 H P Q D E.
  - injection H as -> ->. repeat split.
  - injection H as -> _. elim D. apply Q. left. reflexivity.
  - injection H as -> _. elim E. apply P. left. reflexivity.
  - injection H as -> H. destruct (IH d l2 m1 e m2 H) as (-> & -> & ->).
    + intros z Z. apply P. right. exact Z.
    + intros z Z. apply Q. right. exact Z.
    + exact D.
    + exact E.
    + repeat split.
Qed.
Theorem path_one_answer : forall fs prog dirs r r', answers fs prog dirs r -> answers fs prog dirs r' -> r = r'.
Proof.
  intros fs prog dirs [p|e] [p'|e'] A B; cbn [answers] in A, B.
  - destruct A as (l1 & d & l2 & -> & P & X & Y & ->), B as (m1 & d' & m2 & E & P' & X' & Y' & ->).
    destruct (first_unique fs prog _ _ _ _ _ _ E P P') as (_ & -> & _); [tauto|tauto|reflexivity].
  - destruct A as (l1 & d & l2 & -> & P & X & Y & ->). destruct B as [(-> & m1 & d' & m2 & E & P' & X')|(P' & _)].
    + destruct (first_unique fs prog _ _ _ _ _ _ E P P') as (_ & -> & _); [tauto|tauto|contradiction].
    + destruct (P' d) as (_ & Z); [apply in_or_app; right; left; reflexivity|contradiction].
  - destruct B as (l1 & d & l2 & -> & P & X & Y & ->). destruct A as [(-> & m1 & d' & m2 & E & P' & X')|(P' & _)].
    + destruct (first_unique fs prog _ _ _ _ _ _ E P P') as (_ & -> & _); [tauto|tauto|contradiction].
    + destruct (P' d) as (_ & Z); [apply in_or_app; right; left; reflexivity|contradiction].
  - destruct A as [(-> & l1 & d & l2 & -> & P & X)|(P & A)], B as [(-> & m1 & d' & m2 & E & P' & X')|(P' & B)].
    + reflexivity.
    + destruct (P' d) as (Z & _); [apply in_or_app; right; left; reflexivity|contradiction].
    + destruct (P d') as (Z & _); [rewrite E; apply in_or_app; right; left; reflexivity|contradiction].
    + destruct A as [(-> & d & I & D)|(-> & D)], B as [(-> & d' & I' & D')|(-> & D')]; try reflexivity; [elim (D' d I D)|elim (D d' I' D')].
Qed.

(** * The search *)
(** [answers], when something was denied before if [perm] is false. *)
Definition answersP (perm : bool) fs prog dirs (r : found) : Prop :=
  match r with
  | Found p => answers fs prog dirs (Found p)
  | Error e =>
      (e = (-22)%Z /\ exists l1 d l2, dirs = l1 ++ d :: l2 /\ passed fs prog l1 /\ ~ absolute d) \/
      (passed fs prog dirs /\
       ((e = (-1)%Z /\ (perm = false \/ exists d, In d dirs /\ denied fs (file d prog))) \/
        (e = (-2)%Z /\ perm = true /\ forall d, In d dirs -> ~ denied fs (file d prog))))
  end.
Lemma answersP_cons : forall perm perm' fs prog d l r, absolute d -> ~ executable fs (file d prog) ->
  (perm' = false <-> perm = false \/ denied fs (file d prog)) -> l <> [] ->
  answersP perm' fs prog l r -> answersP perm fs prog (d :: l) r.
Proof.
  intros perm perm' fs prog d l [p|e] A X P N H; cbn [answersP answers] in *.
  - destruct H as (l1 & x & l2 & -> & Q & R). exists (d :: l1), x, l2. split; [reflexivity|]. split; [|exact R].
    intros y [<-|Y]; [split; assumption|apply Q, Y].
  - destruct H as [(-> & l1 & x & l2 & -> & Q & R)|(Q & H)].
    + left. split; [reflexivity|]. exists (d :: l1), x, l2. split; [reflexivity|]. split; [|exact R].
      intros y [<-|Y]; [split; assumption|apply Q, Y].
    + right. split; [intros y [<-|Y]; [split; assumption|apply Q, Y]|].
      destruct H as [(-> & [H|(x & I & D)])|(-> & H & D)].
      * left. split; [reflexivity|]. apply P in H. destruct H as [H|H]; [left; exact H|right; exists d; split; [left; reflexivity|exact H]].
      * left. split; [reflexivity|]. right. exists x. split; [right; exact I|exact D].
      * right. split; [reflexivity|]. split; [destruct perm; [reflexivity|]; destruct perm'; [destruct P as (_ & P); discriminate P; left; reflexivity|discriminate H]|].
        intros y [<-|Y] Z; [|exact (D y Y Z)]. destruct P as (_ & P). rewrite P in H by (right; exact Z). discriminate H.
Qed.
Lemma check_spec : forall fs d prog, match check_prog fs (d ++ [47] ++ prog) with
  | None => executable fs (file d prog)
  | Some e => ~ executable fs (file d prog) /\ ((e =? EPERM)%Z = true <-> denied fs (file d prog))
  end.
Proof.
  intros fs d prog. unfold check_prog, executable, denied, file. destruct (fs (d ++ [47] ++ prog)) as [[]|]; [reflexivity| |];
    (split; [discriminate|]; split; intros X; try discriminate X; reflexivity).
Qed.
Lemma search_spec : forall fs prog l fuel before perm r m, l <> [] -> (forall d, In d l -> ~ In 58 d /\ ~ In 0 d) ->
  (length (join l) < fuel)%nat -> search fuel fs prog before (join l ++ [0]) perm = (r, m) ->
  answersP perm fs prog l r /\
  (exists m', m = before ++ m' /\ length m' = length (join l ++ [0]) /\
     (absolute (hd [] l) -> exists m'', m' = hd [] l ++ 0 :: m'') /\ (~ absolute (hd [] l) -> m' = join l ++ [0])).
Proof.
  intros fs prog. induction l as [|d l IH]; intros fuel before perm r m N F L H; [elim N; reflexivity|].
  destruct fuel as [|fuel]; [lia|]. destruct (F d (or_introl eq_refl)) as (F1 & F2).
  destruct (join (d :: l) ++ [0]) as [|c t] eqn:E; [destruct (join (d :: l)); discriminate E|].
  assert (C : (c =? 47) = true <-> absolute d).
  { destruct d as [|x d].
    - split; [|intros (? & X); discriminate X]. intros X. apply N.eqb_eq in X. subst c. destruct l; discriminate E.
    - assert (c = x) by (destruct l; injection E as -> _; reflexivity). subst c. apply abs_dec. }
  cbn [search] in H. destruct (c =? 47) eqn:CE; cbn [negb] in H.
  2: { injection H as <- <-. assert (NA : ~ absolute d) by (intros X; apply C in X; discriminate X).
       split.
       - left. split; [reflexivity|]. exists [], d, l. split; [reflexivity|]. split; [intros x []|exact NA].
       - exists (c :: t). split; [reflexivity|]. split; [reflexivity|]. split; [intros X; contradiction|reflexivity]. }
  assert (A : absolute d) by (apply C; reflexivity). rewrite <- E in H.
  pose proof (check_spec fs d prog) as K.
  destruct l as [|d2 l].
  - cbn [join] in H, E, L. rewrite scan_dir in H by (first [assumption | left; reflexivity]). cbn [tl] in H.
    destruct (check_prog fs (d ++ [47] ++ prog)) as [e|].
    + assert (S0 : search fuel fs prog (before ++ d ++ [0]) [] (perm && negb (e =? EPERM)%Z) =
                   (Error (if perm && negb (e =? EPERM)%Z then ENOENT else PathModel.EPERM), before ++ d ++ [0])) by (destruct fuel; reflexivity).
      rewrite S0 in H. injection H as <- <-. destruct K as (K1 & K2). split.
      * right. split; [intros x [<-|[]]; split; assumption|].
        destruct (perm && negb (e =? EPERM)%Z) eqn:P.
        -- right. split; [reflexivity|]. apply andb_prop in P. destruct P as (P1 & P2). split; [exact P1|]. intros x [<-|[]] X. apply K2 in X. rewrite X in P2. discriminate P2.
        -- left. split; [reflexivity|]. destruct perm; [right|left; reflexivity]. cbn [andb] in P. apply negb_false_iff in P. exists d. split; [left; reflexivity|apply K2, P].
      * exists (d ++ [0]). split; [reflexivity|]. split; [rewrite <- E; reflexivity|]. split; [intros _; exists []; reflexivity|intros X; contradiction].
    + injection H as <- <-. split; [exists [], d, []; split; [reflexivity|]; split; [intros x []|]; split; [exact A|]; split; [exact K|reflexivity]|].
      exists (d ++ [0]). split; [rewrite app_nil_r; reflexivity|]. split; [rewrite <- E; reflexivity|]. split; [intros _; exists []; reflexivity|intros X; contradiction].
  - rewrite join_cons in *. rewrite <- app_assoc in H. change ((58 :: join (d2 :: l)) ++ [0]) with (58 :: join (d2 :: l) ++ [0]) in H.
    rewrite scan_dir in H by (first [assumption | right; reflexivity]). cbn [tl] in H.
    assert (E2 : length (c :: t) = (length d + S (length (join (d2 :: l) ++ [0%N])))%nat) by (rewrite <- E, <- app_assoc, app_length; reflexivity).
    destruct (check_prog fs (d ++ [47] ++ prog)) as [e|].
    + destruct K as (K1 & K2).
      destruct (IH fuel (before ++ d ++ [0]) (perm && negb (e =? EPERM)%Z) r m) as (I1 & m' & -> & I2 & _).
      * discriminate.
      * intros x X. apply F. right. exact X.
      * rewrite app_length in L. cbn [length] in L. lia.
      * exact H.
      * split.
        -- eapply answersP_cons; [exact A|exact K1| |discriminate|exact I1].
           destruct perm; cbn [andb]; [|split; intros; [left|]; reflexivity]. rewrite negb_false_iff, K2. split; [intros X; right; exact X|intros [X|X]; [discriminate X|exact X]].
        -- exists (d ++ 0 :: m'). split; [rewrite <- !app_assoc; reflexivity|]. split; [rewrite E2, app_length; cbn [length]; lia|].
           split; [intros _; exists m'; reflexivity|intros X; contradiction].
    + injection H as <- <-. split; [exists [], d, (d2 :: l); split; [reflexivity|]; split; [intros x []|]; split; [exact A|]; split; [exact K|reflexivity]|].
      exists (d ++ 0 :: join (d2 :: l) ++ [0]). split; [rewrite <- !app_assoc; reflexivity|]. split; [rewrite E2, app_length; cbn [length]; lia|].
      split; [intros _; eexists; reflexivity|intros X; contradiction].
Qed.

(** * C100 *)
Lemma env_split : forall (p : str) rest, firstn (S (length p)) (p ++ 0 :: rest) = p ++ [0] /\ skipn (S (length p)) (p ++ 0 :: rest) = rest.
Proof.
  intros p rest. assert (E : p ++ 0 :: rest = (p ++ [0]) ++ rest) by (rewrite <- app_assoc; reflexivity). rewrite E.
  assert (L : S (length p) = length (p ++ [0])) by (rewrite app_length; cbn [length]; lia). rewrite L.
  rewrite firstn_app, skipn_app, Nat.sub_diag, firstn_all, skipn_all. cbn. split; [apply app_nil_r|reflexivity].
Qed.
Definition searched (path prog : str) : Prop := path <> [] /\ ~ In 47 prog.
Lemma searched_dec : forall (path prog : str), (Nat.eqb (length path) 0 || existsb (N.eqb 47) prog = false) <-> searched path prog.
Proof.
  intros path prog. unfold searched. rewrite orb_false_iff. split.
  - intros (A & B). split; [intros ->; discriminate A|]. intros I. assert (existsb (N.eqb 47) prog = true); [|congruence].
    apply existsb_exists. exists 47. split; [exact I|reflexivity].
  - intros (A & B). split; [destruct path; [elim A; reflexivity|reflexivity]|]. destruct (existsb (N.eqb 47) prog) eqn:E; [|reflexivity].
    apply existsb_exists in E. destruct E as (x & I & E). apply N.eqb_eq in E. subst x. contradiction.
Qed.

(** The program is the first one in the directories of PATH, ... *)
Theorem path_search : forall fs env path dirs prog r env', value env path -> searched path prog -> directories path dirs ->
  check_prog_path fs env prog = (r, env') -> answers fs prog dirs r.
Proof.
  intros fs env path dirs prog r env' (rest & -> & Z) S D H. unfold check_prog_path in H. rewrite (cstr_app0 _ _ Z) in H.
  apply searched_dec in S. rewrite S in H. destruct (env_split path rest) as (E1 & E2). rewrite E1, E2 in H.
  destruct (search (Datatypes.S (length path)) fs prog [] (path ++ [0]) true) as [r' m] eqn:Q. injection H as -> _.
  destruct D as (D1 & D2 & D3). rewrite <- D2 in Q at 2.
  apply search_spec in Q.
  - destruct Q as (Q & _). destruct r as [p|e]; [exact Q|]. destruct Q as [Q|(Q1 & Q2)]; [left; exact Q|right; split; [exact Q1|]].
    destruct Q2 as [(-> & [X|X])|(-> & _ & X)]; [discriminate X|left; split; [reflexivity|exact X]|right; split; [reflexivity|exact X]].
  - exact D1.
  - intros d I. split; [apply D3, I|]. intros I0. apply Z. rewrite <- D2. eapply in_join; eassumption.
  - rewrite D2. lia.
Qed.
(** ... one that is named with a directory is itself, and without PATH there is
    nothing. *)
Theorem path_direct : forall fs env path prog r env', value env path -> ~ searched path prog ->
  check_prog_path fs env prog = (r, env') -> direct fs prog r /\ env' = env.
Proof.
  intros fs env path prog r env' (rest & -> & Z) S H. unfold check_prog_path in H. rewrite (cstr_app0 _ _ Z) in H.
  destruct (Nat.eqb (length path) 0 || existsb (N.eqb 47) prog) eqn:E; [|elim S; apply searched_dec, E].
  injection H as <- <-. split; [|reflexivity]. unfold check_prog, direct, executable, denied.
  destruct (fs prog) as [[]|]; [split; reflexivity|left; split; reflexivity|right; split; reflexivity].
Qed.
Theorem path_unset : forall fs prog, check_prog_path fs None prog = (Error (-2), None).
Proof. reflexivity. Qed.

(** A search leaves the first directory of PATH and nothing else, if it is
    absolute; then the search has ended at once otherwise. *)
Theorem path_cut : forall fs env path d dirs prog r env', value env path -> searched path prog -> directories path (d :: dirs) -> absolute d ->
  check_prog_path fs env prog = (r, env') -> value env' d.
Proof.
  intros fs env path d dirs prog r env' (rest & -> & Z) S D A H. unfold check_prog_path in H. rewrite (cstr_app0 _ _ Z) in H.
  apply searched_dec in S. rewrite S in H. destruct (env_split path rest) as (E1 & E2). rewrite E1, E2 in H.
  destruct (search (Datatypes.S (length path)) fs prog [] (path ++ [0]) true) as [r' m] eqn:Q. injection H as _ <-.
  destruct D as (D1 & D2 & D3). rewrite <- D2 in Q at 2.
  assert (Z2 : forall x, In x (d :: dirs) -> ~ In 0 x) by (intros x I I0; apply Z; rewrite <- D2; eapply in_join; eassumption).
  apply search_spec in Q.
  - destruct Q as (_ & m' & -> & _ & Q & _). destruct (Q A) as (m'' & ->). cbn [hd app].
    exists (m'' ++ rest). split; [rewrite <- app_assoc; reflexivity|]. apply Z2. left. reflexivity.
  - discriminate.
  - intros x I. split; [apply D3, I|apply Z2, I].
  - rewrite D2. lia.
Qed.
Theorem path_kept_partial : forall fs env path d dirs prog r env', value env path -> directories path (d :: dirs) ->
  ~ searched path prog \/ ~ absolute d \/ dirs = [] -> check_prog_path fs env prog = (r, env') -> value env' path.
Proof.
  intros fs env path d dirs prog r env' V D C H.
  destruct (Nat.eqb (length path) 0 || existsb (N.eqb 47) prog) eqn:E.
  - destruct (path_direct fs env path prog r env' V) as (_ & ->); [intros S; apply searched_dec in S; congruence|exact H|exact V].
  - destruct C as [C|C]; [elim C; apply searched_dec, E|].
    assert (AD : absolute d \/ ~ absolute d) by (destruct d as [|c d]; [right; intros (? & X); discriminate X|];
      destruct (c =? 47) eqn:CE; [left; apply abs_dec, CE|right; intros X; apply abs_dec in X; congruence]).
    destruct AD as [A|NA].
    + destruct C as [C|C]; [contradiction|subst dirs].
      assert (d = path) by (destruct D as (_ & D & _); exact D). subst d. eapply path_cut; try eassumption. apply searched_dec, E.
    + destruct V as (rest & -> & Z). unfold check_prog_path in H. rewrite (cstr_app0 _ _ Z), E in H.
      destruct (env_split path rest) as (E1 & E2). rewrite E1, E2 in H.
      destruct (search (Datatypes.S (length path)) fs prog [] (path ++ [0]) true) as [r' m] eqn:Q. injection H as _ <-.
      destruct D as (D1 & D2 & D3). rewrite <- D2 in Q at 2.
      apply search_spec in Q.
      * destruct Q as (_ & m' & -> & _ & _ & Q). rewrite (Q NA). cbn [app]. exists rest. split; [rewrite <- app_assoc, D2; reflexivity|exact Z].
      * discriminate.
      * intros x I. split; [apply D3, I|]. intros I0. apply Z. rewrite <- D2. eapply in_join; eassumption.
      * rewrite D2. lia.
Qed.

(** So of a number of searches by one process the first looks everywhere, and
    all others in the first directory only. *)
Theorem path_later_searches : forall fs env path d dirs progs rs env', value env path -> directories path (d :: dirs) -> absolute d ->
  (forall p, In p progs -> ~ In 47 p) -> calls fs env progs = (rs, env') ->
  match progs, rs with
  | p :: ps, r :: rs => answers fs p (d :: dirs) r /\ Forall2 (fun p r => answers fs p [d] r) ps rs
  | [], [] => True
  | _, _ => False
  end.
Proof.
  assert (W : forall fs progs env d rs env', value env d -> directories d [d] -> absolute d -> (forall p, In p progs -> ~ In 47 p) ->
              calls fs env progs = (rs, env') -> Forall2 (fun p r => answers fs p [d] r) progs rs).
  { intros fs. induction progs as [|p ps IH]; intros env d rs env' V D A F H; [injection H as <- _; constructor|].
    cbn [calls] in H. destruct (check_prog_path fs env p) as [r e1] eqn:E. destruct (calls fs e1 ps) as [rs' e2] eqn:C. injection H as <- <-.
    assert (S : searched d p) by (split; [destruct A as (x & ->); discriminate|apply F; left; reflexivity]).
    constructor; [eapply path_search; eassumption|]. eapply (IH e1 d); [|exact D|exact A| |exact C].
    - eapply path_cut; eassumption.
    - intros q Q. apply F. right. exact Q. }
  intros fs env path d dirs [|p ps] rs env' V D A F H; [injection H as <- _; exact I|].
  cbn [calls] in H. destruct (check_prog_path fs env p) as [r e1] eqn:E. destruct (calls fs e1 ps) as [rs' e2] eqn:C. injection H as <- <-.
  assert (S : searched path p).
  { split; [|apply F; left; reflexivity]. intros ->. destruct D as (_ & D & _). destruct A as (x & ->). destruct dirs; discriminate D. }
  split; [eapply path_search; eassumption|]. eapply (W fs ps e1 d); [eapply path_cut; eassumption| |exact A| |exact C].
  - destruct D as (_ & _ & D). split; [discriminate|]. split; [reflexivity|]. intros x [<-|[]]. apply D. left. reflexivity.
  - intros q Q. apply F. right. exact Q.
Qed.

(** A search does not always leave PATH as it is, and a program that was found
    may not be found again. *)
Definition ex_path : str := [47; 97; 58; 47; 98].         (* /a:/b *)
Definition ex_fs : fsys := fun p => if list_eq_dec N.eq_dec p [47; 98; 47; 120] then Some true else None.   (* /b/x *)
Lemma ex_value : value (Some (ex_path ++ [0])) ex_path.
Proof. exists []. split; [reflexivity|]. intros I. repeat (destruct I as [I|I]; [discriminate I|]). elim I. Qed.
Theorem path_kept_refuted : ~ (forall fs env path prog r env', value env path -> check_prog_path fs env prog = (r, env') -> value env' path).
Proof.
  intros H. specialize (H ex_fs _ _ [120] (Found [47; 98; 47; 120]) _ ex_value eq_refl). destruct H as (rest & E & _). discriminate E.
Qed.
Theorem path_again_refuted : ~ (forall fs env path prog r1 r2 env', value env path -> calls fs env [prog; prog] = ([r1; r2], env') -> r1 = r2).
Proof.
  intros H. specialize (H ex_fs _ _ [120] (Found [47; 98; 47; 120]) (Error (-2)) _ ex_value eq_refl). discriminate H.
Qed.

(** ** Cases *)
Example ex_dirs : directories ex_path [[47; 97]; [47; 98]] /\ searched ex_path [120] /\ absolute [47; 97].
Proof.
  split; [|split; [|eexists; reflexivity]].
  - split; [discriminate|]. split; [reflexivity|]. intros d [<-|[<-|[]]] I; repeat (destruct I as [I|I]; [discriminate I|]); elim I.
  - split; [discriminate|]. intros [I|[]]. discriminate I.
Qed.
Example ex_search : fst (check_prog_path ex_fs (Some (ex_path ++ [0])) [120]) = Found [47; 98; 47; 120].
Proof. reflexivity. Qed.
(* a relative directory in front hides the others *)
Example ex_relative : fst (check_prog_path ex_fs (Some ([46; 58; 47; 98] ++ [0])) [120]) = Error (-22).
Proof. reflexivity. Qed.
(* not executable here, missing there *)
Example ex_denied : fst (check_prog_path (fun p => if list_eq_dec N.eq_dec p [47; 97; 47; 120] then Some false else None) (Some (ex_path ++ [0])) [120]) = Error (-1).
Proof. reflexivity. Qed.
Example ex_direct : check_prog_path ex_fs (Some (ex_path ++ [0])) [47; 98; 47; 120] = (Found [47; 98; 47; 120], Some (ex_path ++ [0])).
Proof. reflexivity. Qed.

Print Assumptions path_one_answer.
Print Assumptions path_search.
Print Assumptions path_direct.
Print Assumptions path_unset.
Print Assumptions path_cut.
Print Assumptions path_kept_partial.
Print Assumptions path_later_searches.
Print Assumptions path_kept_refuted.
Print Assumptions path_again_refuted.
