(** C103: one IRMd at a time. *)
From Coq Require Import List Bool Arith Lia.
From Verif Require Import LockModel LockSpec.
Import ListNotations.

Lemma upd_eq {A} (f : nat -> A) k a : upd f k a k = a.
Proof. unfold upd. now rewrite Nat.eqb_refl. Qed.
Lemma upd_ne {A} (f : nat -> A) k a x : x <> k -> upd f k a x = f x.
Proof. intros H. unfold upd. destruct (Nat.eqb_spec x k) as [E|_]; [elim (H E)|reflexivity]. Qed.

(** * Starts one by one *)
(** The file a process holds, and what is in it. *)
Definition holds (p : nat) (c : pc) : option (nat * option nat) :=
  match c with
  | Trunc i => Some (i, None)
  | WritePid i => Some (i, Some 0)
  | MkPool i | Run i | RmPool i | RmLock i => Some (i, Some p)
  | _ => None
  end.
(** What a starting process knows. *)
Definition knows (w : world) (c : pc) : Prop :=
  match c with
  | Read i => i < fresh w /\ (name w = None \/ name w = Some i)
  | Probe i v => i < fresh w /\ cell w i = Some v /\ (name w = None \/ name w = Some i)
  | Purge i | Recheck i => exists v, i < fresh w /\ cell w i = Some v /\ v <> 0
  | _ => True
  end.
(** The steps of a process that has found the owner dead. *)
Definition takes (c : pc) : bool := match c with Purge _ | Recheck _ | Unlink | Create2 => true | _ => false end.
Definition poolless (c : pc) : bool :=
  match c with Trunc _ | WritePid _ | MkPool _ | RmLock _ | Recheck _ | Unlink | Create2 => true | _ => false end.
Record inv (w : world) : Prop := {
  i_one : forall p q, is_starting (procs w p) = true -> is_starting (procs w q) = true -> p = q;
  i_pid : procs w 0 = Absent;
  i_fresh : forall i, fresh w <= i -> cell w i = None;
  i_name : forall i, name w = Some i -> i < fresh w;
  i_hold : forall p o u s c i x, procs w p = Irm o u s c -> holds p c = Some (i, x) -> name w = Some i /\ cell w i = x;
  i_know : forall p o u s c, procs w p = Irm o u s c -> knows w c;
  i_take : forall p o u s c q o' u' s' c', procs w p = Irm o u s c -> takes c = true -> procs w q = Irm o' u' s' c' -> holds q c' = None;
  i_pool0 : name w = None -> pool w = None;
  i_pool1 : forall p o u s c, procs w p = Irm o u s c -> poolless c = true -> pool w = None;
  i_pool2 : forall p o u s i, procs w p = Irm o u s (Run i) \/ procs w p = Irm o u s (RmPool i) -> pool w = Some p
}.

Lemma inv_boot : inv boot.
Proof.
  split; cbn; try discriminate; try reflexivity; intros; try discriminate.
  destruct H; discriminate.
Qed.

(** Two holders hold the same file, with different contents. *)
Lemma hold_same w p q o u s c o' u' s' c' i x j y : inv w ->
  procs w p = Irm o u s c -> holds p c = Some (i, x) -> procs w q = Irm o' u' s' c' -> holds q c' = Some (j, y) -> p = q.
Proof.
  intros I Hp Cp Hq Cq.
  destruct (i_hold w I _ _ _ _ _ _ _ Hp Cp) as [N1 V1]. destruct (i_hold w I _ _ _ _ _ _ _ Hq Cq) as [N2 V2].
  rewrite N1 in N2. injection N2 as ->. rewrite V1 in V2. subst y.
  pose proof (i_pid w I) as Z.
  assert (St : (is_starting (procs w p) = true /\ is_starting (procs w q) = true) \/ x = Some p /\ x = Some q).
  { assert (P0 : p <> 0) by (intros ->; congruence). assert (Q0 : q <> 0) by (intros ->; congruence).
    rewrite Hp, Hq. destruct c; cbn in Cp; try discriminate; inversion Cp; subst; clear Cp;
      destruct c'; cbn in Cq; try discriminate; inversion Cq; subst; clear Cq; cbn;
      first [left; split; reflexivity | exfalso; congruence | right; split; congruence]. }
  destruct St as [[A B]|[A B]]; [exact (i_one w I _ _ A B)|congruence].
Qed.

(** A world that differs in one process. *)
Definition harmless (w : world) (p : nat) (x : proc) : Prop :=
  (is_starting x = true -> forall q, is_starting (procs w q) = true -> q = p) /\
  (p = 0 -> x = Absent) /\
  match x with
  | Irm o u s c =>
      (forall i v, holds p c = Some (i, v) -> name w = Some i /\ cell w i = v) /\
      (forall i v, holds p c = Some (i, v) -> forall q o u s c', q <> p -> procs w q = Irm o u s c' -> takes c' = false) /\
      knows w c /\
      (takes c = true -> holds p c = None /\ forall q o u s c', q <> p -> procs w q = Irm o u s c' -> holds q c' = None) /\
      (poolless c = true -> pool w = None) /\
      match c with Run _ | RmPool _ => pool w = Some p | _ => True end
  | _ => True
  end.
Lemma inv_set w p x : inv w -> harmless w p x -> inv (set_proc w p x).
Proof.
  intros I (H1 & H2 & H3).
  assert (G : forall q o u s c, upd (procs w) p x q = Irm o u s c -> q = p /\ x = Irm o u s c \/ q <> p /\ procs w q = Irm o u s c).
  { intros q o u s c E. destruct (Nat.eq_dec q p) as [->|N]; [rewrite upd_eq in E|rewrite upd_ne in E by exact N]; auto. }
  split; cbn [set_proc procs name cell fresh pool].
  - intros a b A B. destruct (Nat.eq_dec a p) as [->|Na]; destruct (Nat.eq_dec b p) as [->|Nb]; try reflexivity;
      rewrite ?upd_eq in *; rewrite ?upd_ne in A by assumption; rewrite ?upd_ne in B by assumption.
    + symmetry. exact (H1 A _ B). + exact (H1 B _ A). + exact (i_one w I _ _ A B).
  - destruct (Nat.eq_dec 0 p) as [E|N]; [rewrite E, upd_eq; apply H2; now symmetry|rewrite upd_ne by exact N; exact (i_pid w I)].
  - exact (i_fresh w I).
  - exact (i_name w I).
  - intros q o u s c i v Q C. destruct (G _ _ _ _ _ Q) as [[-> ->]|[N Q']]; [exact (proj1 H3 i v C)|exact (i_hold w I _ _ _ _ _ _ _ Q' C)].
  - intros q o u s c Q. destruct (G _ _ _ _ _ Q) as [[-> ->]|[N Q']].
    + destruct H3 as (_ & _ & K & _). destruct c; exact K.
    + pose proof (i_know w I _ _ _ _ _ Q') as K. destruct c; exact K.
  - intros a o u s c b o' u' s' c' A T B.
    destruct (G _ _ _ _ _ A) as [[-> Ex]|[Na A']]; destruct (G _ _ _ _ _ B) as [[-> Ex']|[Nb B']].
    + rewrite Ex in *. injection Ex' as <- <- <- <-. apply H3. exact T.
    + rewrite Ex in *. destruct H3 as (_ & _ & _ & K & _). exact (proj2 (K T) _ _ _ _ _ Nb B').
    + rewrite Ex' in *. destruct H3 as (_ & K & _). destruct (holds p c') as [[i v]|] eqn:Hh; [|reflexivity].
      rewrite (K i v eq_refl _ _ _ _ _ Na A') in T. discriminate.
    + exact (i_take w I _ _ _ _ _ _ _ _ _ _ A' T B').
  - exact (i_pool0 w I).
  - intros q o u s c Q C. destruct (G _ _ _ _ _ Q) as [[-> ->]|[N Q']]; [apply H3; exact C|exact (i_pool1 w I _ _ _ _ _ Q' C)].
  - intros q o u s i [Q|Q]; (destruct (G _ _ _ _ _ Q) as [[-> ->]|[N Q']]; [apply H3|]).
    + exact (i_pool2 w I _ _ _ _ _ (or_introl Q')).
    + exact (i_pool2 w I _ _ _ _ _ (or_intror Q')).
Qed.
Lemma inv_gone w p : inv w -> inv (set_proc w p Absent).
Proof. intros I. apply inv_set; [exact I|]. split; [discriminate|]. split; [reflexivity|exact Logic.I]. Qed.

Lemma inv_ext w w' : name w = name w' -> cell w = cell w' -> fresh w = fresh w' -> pool w = pool w' ->
  (forall q, procs w q = procs w' q) -> inv w -> inv w'.
Proof.
  intros N C F P Q I. split.
  - intros a b. rewrite <- !Q. apply (i_one w I).
  - rewrite <- Q. apply (i_pid w I).
  - rewrite <- C, <- F. apply (i_fresh w I).
  - rewrite <- N, <- F. apply (i_name w I).
  - intros a o u s c i x. rewrite <- Q, <- N, <- C. apply (i_hold w I).
  - intros a o u s c. rewrite <- Q. intros H. pose proof (i_know w I _ _ _ _ _ H) as K.
    destruct c; cbn [knows] in *; try exact K; rewrite <- ?N, <- ?C, <- ?F; exact K.
  - intros a o u s c b o' u' s' c'. rewrite <- !Q. apply (i_take w I).
  - rewrite <- N, <- P. apply (i_pool0 w I).
  - intros a o u s c. rewrite <- Q, <- P. apply (i_pool1 w I).
  - intros a o u s i. rewrite <- Q, <- P. apply (i_pool2 w I).
Qed.
Definition shared (f : world -> world) : Prop :=
  forall w w', name w = name w' -> cell w = cell w' -> fresh w = fresh w' -> pool w = pool w' ->
    (forall q, procs (f w) q = procs w q) /\ name (f w) = name (f w') /\ cell (f w) = cell (f w') /\ fresh (f w) = fresh (f w') /\ pool (f w) = pool (f w').
(** First the process goes, then the files change, then the process is back. *)
Lemma inv_via f w p x : shared f -> inv (f (set_proc w p Absent)) -> harmless (f (set_proc w p Absent)) p x -> inv (set_proc (f w) p x).
Proof.
  intros S I H. pose proof (inv_set _ _ _ I H) as J. revert J.
  destruct (S (set_proc w p Absent) w eq_refl eq_refl eq_refl eq_refl) as (P & N & C & F & Q).
  destruct (S w w eq_refl eq_refl eq_refl eq_refl) as (P' & _).
  apply inv_ext; cbn [set_proc name cell fresh pool]; auto.
  intros q. cbn [set_proc procs]. destruct (Nat.eq_dec q p) as [->|D]; [now rewrite !upd_eq|].
  rewrite !upd_ne by exact D. rewrite P, P'. cbn [set_proc procs]. now apply upd_ne.
Qed.

(** The processes other than p, when p is gone. *)
Lemma others w p q o u s c : procs (set_proc w p Absent) q = Irm o u s c -> q <> p /\ procs w q = Irm o u s c.
Proof.
  cbn [set_proc procs]. destruct (Nat.eq_dec q p) as [->|D]; [rewrite upd_eq; discriminate|].
  rewrite upd_ne by exact D. auto.
Qed.
Lemma not_starting w p o u s c : inv w -> is_starting (procs w p) = true ->
  forall q, procs (set_proc w p Absent) q = Irm o u s c -> is_starting (Irm o u s c) = false.
Proof.
  intros I S q Q. destruct (others _ _ _ _ _ _ _ Q) as [D Q']. rewrite <- Q'.
  destruct (is_starting (procs w q)) eqn:E; [|reflexivity]. elim D. exact (i_one w I _ _ E S).
Qed.
Lemma not_holding w p o u s c h : inv w -> procs w p = Irm o u s c -> holds p c = Some h ->
  forall q o' u' s' c', procs (set_proc w p Absent) q = Irm o' u' s' c' -> holds q c' = None.
Proof.
  intros I P H q o' u' s' c' Q. destruct (others _ _ _ _ _ _ _ Q) as [D Q'].
  destruct h as [i x]. destruct (holds q c') as [[j y]|] eqn:E; [|reflexivity].
  elim D. symmetry. exact (hold_same w p q _ _ _ _ _ _ _ _ _ _ _ _ I P H Q' E).
Qed.
Lemma knows_other w c : is_starting (Irm 0 0 0 c) = false -> knows w c.
Proof. destruct c; cbn; try discriminate; intros; exact Logic.I. Qed.
Lemma takes_other c : is_starting (Irm 0 0 0 c) = false -> takes c = false.
Proof. destruct c; cbn; congruence. Qed.
Lemma poolless_other p c : is_starting (Irm 0 0 0 c) = false -> holds p c = None -> poolless c = false.
Proof. destruct c; cbn; congruence. Qed.
Lemma holds_run p c i : c = Run i \/ c = RmPool i -> holds p c = Some (i, Some p).
Proof. intros [-> | ->]; reflexivity. Qed.

(** The changes of the files, while the process that does them is away. *)
Lemma inv_create w : inv w -> name w = None -> (forall q o u s c, procs w q = Irm o u s c -> is_starting (Irm o u s c) = false) -> inv (create w).
Proof.
  intros I N S.
  assert (H : forall q o u s c i x, procs w q = Irm o u s c -> holds q c <> Some (i, x)).
  { intros q o u s c i x Q E. destruct (i_hold w I _ _ _ _ _ _ _ Q E). congruence. }
  split; cbn [create procs name cell fresh pool].
  - exact (i_one w I). - exact (i_pid w I).
  - intros i L. apply (i_fresh w I). lia.
  - intros i E. injection E as <-. lia.
  - intros q o u s c i x Q E. elim (H _ _ _ _ _ _ _ Q E).
  - intros q o u s c Q. apply knows_other. exact (S _ _ _ _ _ Q).
  - intros a o u s c b o' u' s' c' A T. rewrite (takes_other c (S _ _ _ _ _ A)) in T. discriminate.
  - discriminate.
  - exact (i_pool1 w I). - exact (i_pool2 w I).
Qed.
Lemma inv_cell w i v : inv w -> i < fresh w -> (forall q o u s c, procs w q = Irm o u s c -> is_starting (Irm o u s c) = false) ->
  (forall q o u s c, procs w q = Irm o u s c -> holds q c = None) -> inv (set_cell w i v).
Proof.
  intros I L S H. split; cbn [set_cell procs name cell fresh pool].
  - exact (i_one w I). - exact (i_pid w I).
  - intros j G. rewrite upd_ne by lia. apply (i_fresh w I). exact G.
  - exact (i_name w I).
  - intros q o u s c j x Q E. rewrite (H _ _ _ _ _ Q) in E. discriminate.
  - intros q o u s c Q. apply knows_other. exact (S _ _ _ _ _ Q).
  - intros a o u s c b o' u' s' c' A T. rewrite (takes_other c (S _ _ _ _ _ A)) in T. discriminate.
  - exact (i_pool0 w I). - exact (i_pool1 w I). - exact (i_pool2 w I).
Qed.
Lemma inv_unname w : inv w -> pool w = None -> (forall q o u s c, procs w q = Irm o u s c -> holds q c = None) -> inv (set_name w None).
Proof.
  intros I P H. split; cbn [set_name procs name cell fresh pool].
  - exact (i_one w I). - exact (i_pid w I). - exact (i_fresh w I). - discriminate.
  - intros q o u s c j x Q E. rewrite (H _ _ _ _ _ Q) in E. discriminate.
  - intros q o u s c Q. pose proof (i_know w I _ _ _ _ _ Q) as K. destruct c; cbn [knows set_name name cell fresh] in *; try exact K; tauto.
  - exact (i_take w I). - intros _. exact P. - intros. exact P. - exact (i_pool2 w I).
Qed.
Lemma inv_unpool w : inv w -> (forall q o u s c, procs w q = Irm o u s c -> holds q c = None) -> inv (set_pool w None).
Proof.
  intros I H. split; cbn [set_pool procs name cell fresh pool].
  - exact (i_one w I). - exact (i_pid w I). - exact (i_fresh w I). - exact (i_name w I).
  - exact (i_hold w I).
  - intros q o u s c Q. pose proof (i_know w I _ _ _ _ _ Q) as K. destruct c; exact K.
  - exact (i_take w I). - reflexivity. - reflexivity.
  - intros q o u s i [Q|Q]; specialize (H _ _ _ _ _ Q); discriminate H.
Qed.
Lemma inv_mkpool w p : inv w -> name w <> None -> (forall q o u s c, procs w q = Irm o u s c -> is_starting (Irm o u s c) = false) ->
  (forall q o u s c, procs w q = Irm o u s c -> holds q c = None) -> inv (set_pool w (Some p)).
Proof.
  intros I N S H. split; cbn [set_pool procs name cell fresh pool].
  - exact (i_one w I). - exact (i_pid w I). - exact (i_fresh w I). - exact (i_name w I).
  - exact (i_hold w I).
  - intros q o u s c Q. pose proof (i_know w I _ _ _ _ _ Q) as K. destruct c; exact K.
  - exact (i_take w I). - intros E. elim (N E).
  - intros q o u s c Q E. rewrite (poolless_other q c (S _ _ _ _ _ Q) (H _ _ _ _ _ Q)) in E. discriminate.
  - intros q o u s i [Q|Q]; specialize (H _ _ _ _ _ Q); discriminate H.
Qed.

Lemma sh_create : shared create.
Proof. intros w w' N C F P. unfold create. cbn. rewrite ?N, ?C, ?F, ?P. auto. Qed.
Lemma sh_cell i v : shared (fun w => set_cell w i v).
Proof. intros w w' N C F P. unfold set_cell. cbn. rewrite ?N, ?C, ?F, ?P. auto. Qed.
Lemma sh_name n : shared (fun w => set_name w n).
Proof. intros w w' N C F P. unfold set_name. cbn. rewrite ?N, ?C, ?F, ?P. auto. Qed.
Lemma sh_pool n : shared (fun w => set_pool w n).
Proof. intros w w' N C F P. unfold set_pool. cbn. rewrite ?N, ?C, ?F, ?P. auto. Qed.

Lemma pid_pos w p o u s c : inv w -> procs w p = Irm o u s c -> p <> 0.
Proof. intros I P ->. rewrite (i_pid w I) in P. discriminate. Qed.
Lemma starter w p o u s c : procs w p = Irm o u s c -> is_starting (Irm o u s c) = true -> is_starting (procs w p) = true.
Proof. intros -> H. exact H. Qed.

Ltac harm I P :=
  split; [intros _ ?q ?S; cbn [set_proc set_name set_cell set_pool create procs] in *; eauto
         |split; [intros ?Z; elim (pid_pos _ _ _ _ _ _ I P Z)|]].

Lemma inv_step_irm w p o u s c w' : inv w -> procs w p = Irm o u s c -> step_irm w p o u s c = Some w' -> inv w'.
Proof.
  intros I P E.
  pose proof (pid_pos _ _ _ _ _ _ I P) as P0.
  pose proof (inv_gone w p I) as I0.
  assert (One : is_starting (Irm o u s c) = true -> forall q, is_starting (procs w q) = true -> q = p).
  { intros S q Q. apply (i_one w I); [exact Q|]. rewrite P. exact S. }
  assert (NS : is_starting (Irm o u s c) = true -> forall q o' u' s' c', procs (set_proc w p Absent) q = Irm o' u' s' c' -> is_starting (Irm o' u' s' c') = false).
  { intros S q o' u' s' c' Q. apply (not_starting w p _ _ _ _ I) with (q := q); [rewrite P; exact S|exact Q]. }
  assert (NT : is_starting (Irm o u s c) = true -> forall q o' u' s' c', q <> p -> procs w q = Irm o' u' s' c' -> takes c' = false).
  { intros S q o' u' s' c' D Q. apply takes_other. apply (NS S q o' u' s' c'). cbn [set_proc procs]. now rewrite upd_ne. }
  assert (NH : forall h, holds p c = Some h -> forall q o' u' s' c', procs (set_proc w p Absent) q = Irm o' u' s' c' -> holds q c' = None).
  { intros h Hh. exact (not_holding w p _ _ _ _ _ I P Hh). }
  assert (TH : takes c = true -> forall q o' u' s' c', procs (set_proc w p Absent) q = Irm o' u' s' c' -> holds q c' = None).
  { intros T q o' u' s' c' Q. destruct (others _ _ _ _ _ _ _ Q) as [_ Q']. exact (i_take w I _ _ _ _ _ _ _ _ _ _ P T Q'). }
  pose proof (i_know w I _ _ _ _ _ P) as K.
  assert (HH : forall i x, holds p c = Some (i, x) -> name w = Some i /\ cell w i = x).
  { intros i x. exact (i_hold w I _ _ _ _ _ _ _ P). }
  assert (PL : poolless c = true -> pool w = None) by exact (i_pool1 w I _ _ _ _ _ P).
  assert (Up : forall q, q <> p -> procs (set_proc w p Absent) q = procs w q) by (intros q D; cbn [set_proc procs]; now apply upd_ne).
  assert (ST : forall q, is_starting (procs (set_proc w p Absent) q) = true -> is_starting (procs w q) = true).
  { intros q. destruct (Nat.eq_dec q p) as [->|D]; [cbn [set_proc procs]; rewrite upd_eq; discriminate|now rewrite Up]. }
  destruct c; cbn [step_irm] in E; injection E as <- || discriminate E.
  - (* Create1 *)
    destruct (name w) as [j|] eqn:N.
    + apply inv_set; [exact I|]. split; [intros _; exact (One eq_refl)|]. split; [intros Z; elim (P0 Z)|].
      cbn [holds takes poolless knows]. repeat (split; [discriminate || exact Logic.I|]). exact Logic.I.
    + apply (inv_via create); [exact sh_create|exact (inv_create _ I0 N (NS eq_refl))|].
      split; [intros _ q Q; apply (One eq_refl); exact (ST q Q)|]. split; [intros Z; elim (P0 Z)|].
      split; [intros i v Hv; injection Hv as <- <-; split; [reflexivity|exact (i_fresh w I _ (le_n _))]|].
      split; [intros i v _ q o' u' s' c' D Q; apply takes_other; exact (NS eq_refl _ _ _ _ _ Q)|].
      split; [exact Logic.I|]. split; [discriminate|]. split; [intros _; exact (i_pool0 w I N)|exact Logic.I].
  - (* Trunc *)
    destruct (HH i None eq_refl) as [N C].
    apply (inv_via (fun w => set_cell w i 0)); [exact (sh_cell i 0)|exact (inv_cell _ _ _ I0 (i_name w I i N) (NS eq_refl) (NH _ eq_refl))|].
    split; [intros _ q Q; apply (One eq_refl); exact (ST q Q)|]. split; [intros Z; elim (P0 Z)|].
    split; [intros j v Hv; injection Hv as <- <-; split; [exact N|apply upd_eq]|].
    split; [intros j v _ q o' u' s' c' D Q; apply takes_other; exact (NS eq_refl _ _ _ _ _ Q)|].
    split; [exact Logic.I|]. split; [discriminate|]. split; [intros _; exact (PL eq_refl)|exact Logic.I].
  - (* WritePid *)
    destruct (HH i (Some 0) eq_refl) as [N C].
    apply (inv_via (fun w => set_cell w i p)); [exact (sh_cell i p)|exact (inv_cell _ _ _ I0 (i_name w I i N) (NS eq_refl) (NH _ eq_refl))|].
    split; [intros _ q Q; apply (One eq_refl); exact (ST q Q)|]. split; [intros Z; elim (P0 Z)|].
    split; [intros j v Hv; injection Hv as <- <-; split; [exact N|apply upd_eq]|].
    split; [intros j v _ q o' u' s' c' D Q; apply takes_other; exact (NS eq_refl _ _ _ _ _ Q)|].
    split; [exact Logic.I|]. split; [discriminate|]. split; [intros _; exact (PL eq_refl)|exact Logic.I].
  - (* Open *)
    destruct (name w) as [j|] eqn:N; [|exact I0].
    apply inv_set; [exact I|]. split; [intros _; exact (One eq_refl)|]. split; [intros Z; elim (P0 Z)|].
    split; [discriminate|]. split; [discriminate|]. split; [split; [exact (i_name w I j N)|right; exact N]|].
    split; [discriminate|]. split; [discriminate|exact Logic.I].
  - (* Read *)
    destruct K as [L N]. destruct (cell w i) as [v|] eqn:C; [|exact I0].
    apply inv_set; [exact I|]. split; [intros _; exact (One eq_refl)|]. split; [intros Z; elim (P0 Z)|].
    split; [discriminate|]. split; [discriminate|]. split; [split; [exact L|split; [exact C|exact N]]|].
    split; [discriminate|]. split; [discriminate|exact Logic.I].
  - (* Probe *)
    destruct K as (L & C & N). destruct (Nat.eqb v 0 || alive w v) eqn:A; [exact I0|].
    apply orb_false_elim in A. destruct A as [V A]. apply Nat.eqb_neq in V.
    apply inv_set; [exact I|]. split; [intros _; exact (One eq_refl)|]. split; [intros Z; elim (P0 Z)|].
    split; [discriminate|]. split; [discriminate|]. split; [exists v; auto|].
    split; [|split; [discriminate|exact Logic.I]]. intros _. split; [reflexivity|].
    intros q o' u' s' c' D Q. destruct (holds q c') as [[j x]|] eqn:Hq; [|reflexivity].
    destruct (i_hold w I _ _ _ _ _ _ _ Q Hq) as [Nj Cj].
    destruct N as [N|N]; [congruence|]. rewrite N in Nj. injection Nj as <-. rewrite C in Cj.
    assert (Sq : is_starting (Irm o' u' s' c') = false).
    { apply (NS eq_refl q o' u' s' c'). rewrite Up by exact D. exact Q. }
    assert (x = Some q) by (destruct c'; cbn in Hq, Sq; congruence).
    assert (v = q) by congruence. subst v. unfold alive in A. rewrite Q in A. discriminate.
  - (* Purge *)
    apply (inv_via (fun w => set_pool w None)); [exact (sh_pool None)|exact (inv_unpool _ I0 (TH eq_refl))|].
    split; [intros _ q Q; apply (One eq_refl); exact (ST q Q)|]. split; [intros Z; elim (P0 Z)|].
    split; [discriminate|]. split; [discriminate|]. split; [exact K|].
    split; [|split; [reflexivity|exact Logic.I]]. intros _. split; [reflexivity|].
    intros q o' u' s' c' D Q. exact (TH eq_refl _ _ _ _ _ Q).
  - (* Recheck *)
    destruct K as (v & L & C & V). rewrite C.
    assert (G : forall c', (c' = Create2 \/ c' = Unlink) -> inv (set_proc w p (Irm o u s c'))).
    { intros c' E. apply inv_set; [exact I|]. split; [intros _; exact (One eq_refl)|]. split; [intros Z; elim (P0 Z)|].
      split; [destruct E; subst; discriminate|]. split; [destruct E; subst; discriminate|].
      split; [destruct E; subst; exact Logic.I|]. split; [|split; [intros _; exact (PL eq_refl)|destruct E; subst; exact Logic.I]].
      intros _. split; [destruct E; subst; reflexivity|]. intros q o' u' s' c'' D Q. apply (TH eq_refl q o' u' s'). now rewrite Up. }
    destruct (negb _ && _); apply G; auto.
  - (* Unlink *)
    apply (inv_via (fun w => set_name w None)); [exact (sh_name None)|exact (inv_unname _ I0 (PL eq_refl) (TH eq_refl))|].
    split; [intros _ q Q; apply (One eq_refl); exact (ST q Q)|]. split; [intros Z; elim (P0 Z)|].
    split; [discriminate|]. split; [discriminate|]. split; [exact Logic.I|].
    split; [|split; [intros _; exact (PL eq_refl)|exact Logic.I]]. intros _. split; [reflexivity|].
    intros q o' u' s' c' D Q. exact (TH eq_refl _ _ _ _ _ Q).
  - (* Create2 *)
    destruct (name w) as [j|] eqn:N; [exact I0|].
    apply (inv_via create); [exact sh_create|exact (inv_create _ I0 N (NS eq_refl))|].
    split; [intros _ q Q; apply (One eq_refl); exact (ST q Q)|]. split; [intros Z; elim (P0 Z)|].
    split; [intros i v Hv; injection Hv as <- <-; split; [reflexivity|exact (i_fresh w I _ (le_n _))]|].
    split; [intros i v _ q o' u' s' c' D Q; apply takes_other; exact (NS eq_refl _ _ _ _ _ Q)|].
    split; [exact Logic.I|]. split; [discriminate|]. split; [intros _; exact (i_pool0 w I N)|exact Logic.I].
  - (* MkPool *)
    destruct (HH i (Some p) eq_refl) as [N C]. rewrite (PL eq_refl).
    apply (inv_via (fun w => set_pool w (Some p))); [exact (sh_pool (Some p))|apply (inv_mkpool _ _ I0); [cbn; congruence|exact (NS eq_refl)|exact (NH _ eq_refl)]|].
    split; [discriminate|]. split; [intros Z; elim (P0 Z)|].
    split; [intros j v Hv; injection Hv as <- <-; split; [exact N|exact C]|].
    split; [intros j v _ q o' u' s' c' D Q; apply takes_other; exact (NS eq_refl _ _ _ _ _ Q)|].
    split; [exact Logic.I|]. split; [discriminate|]. split; [discriminate|reflexivity].
  - (* RmPool *)
    destruct (HH i (Some p) eq_refl) as [N C].
    apply (inv_via (fun w => set_pool w None)); [exact (sh_pool None)|exact (inv_unpool _ I0 (NH _ eq_refl))|].
    split; [discriminate|]. split; [intros Z; elim (P0 Z)|].
    split; [intros j v Hv; injection Hv as <- <-; split; [exact N|exact C]|].
    split.
    { intros j v _ q o' u' s' c' D Q. destruct (takes c') eqn:T; [|reflexivity].
      change (procs (set_pool (set_proc w p Absent) None) q) with (procs (set_proc w p Absent) q) in Q. rewrite Up in Q by exact D.
      pose proof (i_take w I _ _ _ _ _ _ _ _ _ _ Q T P) as X. discriminate X. }
    split; [exact Logic.I|]. split; [discriminate|]. split; [reflexivity|exact Logic.I].
  - (* RmLock *)
    apply (inv_via (fun w => set_name w None)); [exact (sh_name None)|exact (inv_unname _ I0 (PL eq_refl) (NH _ eq_refl))|].
    split; [discriminate|]. split; [intros Z; elim (P0 Z)|].
    split; [discriminate|]. split; [discriminate|]. split; [exact Logic.I|]. split; [discriminate|]. split; [discriminate|exact Logic.I].
  - (* Ending *) exact I0.
Qed.

Lemma inv_step w e w' : inv w -> one_by_one w e -> step e w = Some w' -> inv w'.
Proof.
  intros I O E. destruct e; cbn [step] in E.
  - destruct p; [discriminate|]. destruct (procs w (S p)) eqn:P; try discriminate. injection E as <-.
    apply inv_set; [exact I|]. split; [intros _ q S; cbn in O; rewrite (O q) in S; discriminate|]. split; [discriminate|].
    cbn [holds takes poolless knows]. repeat (split; [discriminate || exact Logic.I|]). exact Logic.I.
  - destruct p; [discriminate|]. destruct (procs w (S p)) eqn:P; try discriminate. injection E as <-.
    apply inv_set; [exact I|]. split; [discriminate|]. split; [discriminate|exact Logic.I].
  - destruct (procs w p) eqn:P; try discriminate. exact (inv_step_irm _ _ _ _ _ _ _ I P E).
  - destruct (procs w p) as [| |o u s c] eqn:P; try discriminate. destruct c; try discriminate. injection E as <-.
    pose proof (i_hold w I _ _ _ _ _ _ _ P eq_refl) as H.
    apply inv_set; [exact I|]. split; [discriminate|]. split; [intros Z; elim (pid_pos _ _ _ _ _ _ I P Z)|].
    split; [intros j v Hv; injection Hv as <- <-; exact H|].
    split.
    { intros j v _ q o' u' s' c' D Q. destruct (takes c') eqn:T; [|reflexivity].
      pose proof (i_take w I _ _ _ _ _ _ _ _ _ _ Q T P) as X. discriminate X. }
    split; [exact Logic.I|]. split; [discriminate|]. split; [intros _; exact (i_pool1 w I _ _ _ _ _ P eq_refl)|exact Logic.I].
  - destruct (procs w p) as [| |o u s c] eqn:P; try discriminate. destruct c; try discriminate. injection E as <-.
    pose proof (i_hold w I _ _ _ _ _ _ _ P eq_refl) as H.
    apply inv_set; [exact I|]. split; [discriminate|]. split; [intros Z; elim (pid_pos _ _ _ _ _ _ I P Z)|].
    split; [intros j v Hv; injection Hv as <- <-; exact H|].
    split.
    { intros j v _ q o' u' s' c' D Q. destruct (takes c') eqn:T; [|reflexivity].
      pose proof (i_take w I _ _ _ _ _ _ _ _ _ _ Q T P) as X. discriminate X. }
    split; [exact Logic.I|]. split; [discriminate|]. split; [discriminate|exact (i_pool2 w I _ _ _ _ _ (or_introl P))].
  - destruct (procs w p); try discriminate; injection E as <-; exact (inv_gone w p I).
Qed.
Lemma inv_history w : history one_by_one w -> inv w.
Proof. induction 1 as [|w e w' _ I O E]; [exact inv_boot|exact (inv_step _ _ _ I O E)]. Qed.

(** * C103 *)
Theorem lock_one_partial w : history one_by_one w -> at_most_one w.
Proof.
  intros H p q (o & u & s & i & P) (o' & u' & s' & j & Q).
  exact (hold_same w p q _ _ _ _ _ _ _ _ _ _ _ _ (inv_history w H) P eq_refl Q eq_refl).
Qed.
Print Assumptions lock_one_partial.

(** The lock file names the running IRMd, and the pool is its own. *)
Theorem lock_own_partial w p : history one_by_one w -> running w p ->
  (exists i, name w = Some i /\ cell w i = Some p) /\ pool w = Some p.
Proof.
  intros H (o & u & s & i & P). pose proof (inv_history w H) as I. split.
  - exists i. exact (i_hold w I _ _ _ _ _ _ _ P eq_refl).
  - exact (i_pool2 w I _ _ _ _ _ (or_introl P)).
Qed.
Print Assumptions lock_own_partial.

Definition same_but (w w' : world) (p : nat) : Prop :=
  name w' = name w /\ cell w' = cell w /\ pool w' = pool w /\ procs w' p = Absent /\ forall q, q <> p -> procs w' q = procs w q.

Lemma run_step w p o u s c w' k : procs w p = Irm o u s c -> step_irm w p o u s c = Some w' ->
  run (repeat (Step p) (S k)) w = run (repeat (Step p) k) w'.
Proof. intros P E. cbn [repeat run step]. now rewrite P, E. Qed.
Lemma run_start w p m k : p <> 0 -> procs w p = Absent ->
  run (start_alone p m k) w = run (repeat (Step p) k) (set_proc w p (Irm m m m Create1)).
Proof. intros P0 A. unfold start_alone. cbn [run step]. destruct p; [elim (P0 eq_refl)|]. now rewrite A. Qed.

(** A start while an IRMd runs is refused, and changes nothing. *)
Theorem lock_refuses w q p m : history one_by_one w -> running w q -> p <> 0 -> procs w p = Absent ->
  exists w', run (start_alone p m 4) w = Some w' /\ same_but w w' p.
Proof.
  intros H R P0 PA. destruct (lock_own_partial w q H R) as ((i & N & C) & PO).
  assert (D : q <> p) by (destruct R as (o & u & s & j & Q); congruence).
  assert (A : procs w q <> Absent) by (destruct R as (o & u & s & j & Q); congruence).
  rewrite run_start by assumption.
  erewrite run_step; [|apply upd_eq|cbn [step_irm set_proc name]; rewrite N; reflexivity].
  erewrite run_step; [|apply upd_eq|cbn [step_irm set_proc name]; rewrite N; reflexivity].
  erewrite run_step; [|apply upd_eq|cbn [step_irm set_proc cell]; rewrite C; reflexivity].
  erewrite run_step; [|apply upd_eq|].
  2:{ cbn [step_irm]. match goal with |- context[if ?b then _ else _] => assert (E : b = true) end.
      { unfold alive. cbn [set_proc procs]. rewrite !upd_ne by exact D. destruct (procs w q); [elim (A eq_refl)|apply orb_true_r|apply orb_true_r]. }
      rewrite E. reflexivity. }
  eexists. split; [reflexivity|]. unfold same_but. cbn [set_proc name cell fresh pool procs].
  split; [reflexivity|]. split; [reflexivity|]. split; [reflexivity|]. split; [apply upd_eq|].
  intros x X. now rewrite !upd_ne by exact X.
Qed.
Print Assumptions lock_refuses.

(** ** Any number of starts at once, while no IRMd ends *)
Definition fits2 (w : world) (p : nat) (x : proc) : Prop :=
  match x with
  | Irm o u s c =>
      match c with
      | Create1 => u = o
      | Open => name w <> None
      | Read i => name w = Some i
      | Probe i v => name w = Some i /\ (v = 0 \/ cell w i = Some v)
      | Trunc i => name w = Some i /\ cell w i = None /\ pool w = None /\ s = o
      | WritePid i => name w = Some i /\ cell w i = Some 0 /\ pool w = None /\ s = o
      | MkPool i => name w = Some i /\ cell w i = Some p /\ pool w = None /\ u = o
      | Run i => name w = Some i /\ cell w i = Some p /\ u = o
      | _ => False
      end
  | _ => True
  end.
Definition hold2 (x : proc) : bool := match x with Irm _ _ _ (Trunc _ | WritePid _ | MkPool _ | Run _) => true | _ => false end.
Record inv2 (w : world) : Prop := {
  j_fits : forall p, fits2 w p (procs w p);
  j_one : forall p q, hold2 (procs w p) = true -> hold2 (procs w q) = true -> p = q;
  j_name : name w = None -> pool w = None /\ forall p, hold2 (procs w p) = false;
  j_fresh : forall i, fresh w <= i -> cell w i = None;
  j_lt : forall i, name w = Some i -> i < fresh w;
  j_owner : forall i v, name w = Some i -> cell w i = Some v -> v <> 0 -> hold2 (procs w v) = true
}.
Lemma inv2_boot : inv2 boot.
Proof. split; cbn; try discriminate; auto; intros; discriminate. Qed.

(** One process changes, and the files do not. *)
Lemma inv2_set w p x : inv2 w -> fits2 w p x -> hold2 x = hold2 (procs w p) -> inv2 (set_proc w p x).
Proof.
  intros I F H.
  assert (G : forall q, hold2 (upd (procs w) p x q) = hold2 (procs w q)).
  { intros q. destruct (Nat.eq_dec q p) as [->|D]; [rewrite upd_eq; exact H|now rewrite upd_ne]. }
  split; cbn [set_proc name cell fresh pool procs].
  - intros q. destruct (Nat.eq_dec q p) as [->|D]; [rewrite upd_eq|rewrite upd_ne by exact D].
    + exact F. + exact (j_fits w I q).
  - intros a b. rewrite !G. apply (j_one w I).
  - intros N. destruct (j_name w I N) as [P Q]. split; [exact P|]. intros q. rewrite G. apply Q.
  - exact (j_fresh w I).
  - exact (j_lt w I).
  - intros i v. rewrite G. apply (j_owner w I).
Qed.
(** A holder goes on, and changes the files. *)
Lemma inv2_hold w w' p : inv2 w -> hold2 (procs w p) = true -> hold2 (procs w' p) = true ->
  (forall q, q <> p -> procs w' q = procs w q) -> name w' = name w -> fresh w' = fresh w ->
  (forall i, name w = Some i -> forall j, j <> i -> cell w' j = cell w j) ->
  (forall i v, name w = Some i -> cell w' i = Some v -> v = 0 \/ v = p) ->
  (forall i v, name w = Some i -> cell w i = Some v -> v <> 0 -> cell w' i = Some v) ->
  fits2 w' p (procs w' p) -> inv2 w'.
Proof.
  intros I H H' Q N F C V K X.
  assert (G : forall q, hold2 (procs w' q) = hold2 (procs w q)).
  { intros q. destruct (Nat.eq_dec q p) as [->|D]; [congruence|now rewrite Q]. }
  assert (NN : name w <> None).
  { intros E. destruct (j_name w I E) as [_ B]. rewrite (B p) in H. discriminate. }
  split.
  - intros q. destruct (Nat.eq_dec q p) as [->|D]; [exact X|]. rewrite (Q q D).
    pose proof (j_fits w I q) as Fq.
    assert (Hq : hold2 (procs w q) = false) by (destruct (hold2 (procs w q)) eqn:E; [elim D; exact (j_one w I _ _ E H)|reflexivity]).
    destruct (procs w q) as [| |o u s c]; try exact Logic.I.
    destruct c; cbn [fits2 hold2] in *; try discriminate; try exact Fq; rewrite ?N; try exact Fq.
    destruct Fq as [A [B|B]]; split; auto.
    destruct (Nat.eq_dec v 0) as [E0|E0]; [left; exact E0|right; exact (K _ _ A B E0)].
  - intros a b. rewrite !G. apply (j_one w I).
  - rewrite N. intros E. elim (NN E).
  - intros i L. rewrite F in L. destruct (name w) as [j|] eqn:Ej; [|elim (NN eq_refl)].
    pose proof (j_lt w I j Ej) as Lj. rewrite (C j eq_refl i) by lia. exact (j_fresh w I i L).
  - rewrite N, F. exact (j_lt w I).
  - rewrite N. intros i v E Cv V0. rewrite G. destruct (V i v E Cv) as [Z|Z]; [elim (V0 Z)|subst; exact H].
Qed.

Lemma inv2_step w e w' : inv2 w -> none_ends w e -> step e w = Some w' -> inv2 w'.
Proof.
  intros I O E. destruct e; cbn [step] in E; try (elim O; fail).
  - destruct p; [discriminate|]. destruct (procs w (S p)) eqn:P; try discriminate. injection E as <-.
    apply inv2_set; [exact I|reflexivity|now rewrite P].
  - destruct p; [discriminate|]. destruct (procs w (S p)) eqn:P; try discriminate. injection E as <-.
    apply inv2_set; [exact I|exact Logic.I|now rewrite P].
  - destruct (procs w p) as [| |o u s c] eqn:P; try discriminate.
    pose proof (j_fits w I p) as F. rewrite P in F.
    destruct c; cbn [step_irm] in E; cbn [fits2] in F; try (elim F; fail); try discriminate; injection E as <-.
    + (* Create1 *) subst u. destruct (name w) as [j|] eqn:N.
      * apply inv2_set; [exact I|cbn [fits2]; congruence|now rewrite P].
      * destruct (j_name w I N) as [PO H].
        assert (HN : forall q, hold2 (upd (procs w) p (Irm o 0 o (Trunc (fresh w))) q) = true -> q = p).
        { intros q Q. destruct (Nat.eq_dec q p) as [Eq|D]; [exact Eq|]. rewrite upd_ne, H in Q by exact D. discriminate. }
        split; cbn [set_proc create name cell fresh pool procs].
        -- intros q. destruct (Nat.eq_dec q p) as [->|D]; [rewrite upd_eq|rewrite upd_ne by exact D].
           ++ cbn [fits2 set_proc create name cell fresh pool]. repeat split; auto. exact (j_fresh w I _ (le_n _)).
           ++ pose proof (j_fits w I q) as Fq. pose proof (H q) as Hq. destruct (procs w q) as [| |o' u' s' c']; try exact Logic.I.
              destruct c'; cbn [fits2 hold2 set_proc create name cell] in *; try discriminate; try exact Fq; try congruence; destruct Fq; congruence.
        -- intros a b A B. rewrite (HN a A), (HN b B). reflexivity.
        -- discriminate.
        -- intros i L. apply (j_fresh w I). lia.
        -- intros i Ei. injection Ei as <-. lia.
        -- intros i v Ei C. injection Ei as <-. rewrite (j_fresh w I _ (le_n _)) in C. discriminate.
    + (* Trunc *) destruct F as (N & C & PO & ->).
      apply (inv2_hold w _ p I); cbn [set_proc set_cell name cell fresh pool procs]; try reflexivity; rewrite ?upd_eq; rewrite ?P; try reflexivity.
      * intros q D. now apply upd_ne.
      * intros j Nj x X. assert (j = i) by congruence. subst j. now apply upd_ne.
      * intros j v Nj. assert (j = i) by congruence. subst j. rewrite upd_eq. intros X. injection X as <-. auto.
      * intros j v Nj. assert (j = i) by congruence. subst j. congruence.
      * cbn [fits2 set_proc set_cell name cell pool]. rewrite upd_eq. auto.
    + (* WritePid *) destruct F as (N & C & PO & ->).
      apply (inv2_hold w _ p I); cbn [set_proc set_cell name cell fresh pool procs]; try reflexivity; rewrite ?upd_eq; rewrite ?P; try reflexivity.
      * intros q D. now apply upd_ne.
      * intros j Nj x X. assert (j = i) by congruence. subst j. now apply upd_ne.
      * intros j v Nj. assert (j = i) by congruence. subst j. rewrite upd_eq. intros X. injection X as <-. auto.
      * intros j v Nj. assert (j = i) by congruence. subst j. congruence.
      * cbn [fits2 set_proc set_cell name cell pool]. rewrite upd_eq. auto.
    + (* Open *) destruct (name w) as [j|] eqn:N; [|elim (F eq_refl)].
      apply inv2_set; [exact I|exact N|now rewrite P].
    + (* Read *) destruct (cell w i) as [v|] eqn:C.
      * apply inv2_set; [exact I|split; [exact F|right; exact C]|now rewrite P].
      * apply inv2_set; [exact I|exact Logic.I|now rewrite P].
    + (* Probe *) destruct F as [N F]. destruct (Nat.eqb v 0 || alive w v) eqn:A.
      * apply inv2_set; [exact I|exact Logic.I|now rewrite P].
      * apply orb_false_elim in A. destruct A as [V A]. apply Nat.eqb_neq in V.
        destruct F as [F|F]; [elim (V F)|]. pose proof (j_owner w I i v N F V) as Hv.
        unfold alive in A. destruct (procs w v); discriminate.
    + (* MkPool *) destruct F as (N & C & PO & ->). rewrite PO.
      apply (inv2_hold w _ p I); cbn [set_proc set_pool name cell fresh pool procs]; try reflexivity; rewrite ?upd_eq; rewrite ?P; try reflexivity; auto.
      * intros q D. now apply upd_ne.
      * intros j v Nj Cv. assert (j = i) by congruence. subst j. right. congruence.
      * cbn [fits2 set_proc set_pool name cell pool]. auto.
  - cbn in O. rewrite O in E. injection E as <-. apply inv2_set; [exact I|exact Logic.I|now rewrite O].
Qed.
Lemma inv2_history w : history none_ends w -> inv2 w.
Proof. induction 1 as [|w e w' _ I O E]; [exact inv2_boot|exact (inv2_step _ _ _ I O E)]. Qed.

(** As long as no IRMd has ended, there is one at most, however many are started
    at once; and it has the umask it was started with. *)
Theorem lock_first_partial w : history none_ends w ->
  at_most_one w /\ forall p o u s i, procs w p = Irm o u s (Run i) -> u = o /\ name w = Some i /\ cell w i = Some p.
Proof.
  intros H. pose proof (inv2_history w H) as I. split.
  - intros p q (o & u & s & i & P) (o' & u' & s' & j & Q). apply (j_one w I); [rewrite P|rewrite Q]; reflexivity.
  - intros p o u s i P. pose proof (j_fits w I p) as F. rewrite P in F. cbn in F. tauto.
Qed.
Print Assumptions lock_first_partial.

(** ** After the end of an IRMd *)
Lemma not_making_one w : history not_making w -> history one_by_one w.
Proof. induction 1 as [|w e w' H IH O E]; [constructor|]. exact (h_step _ w e w' IH (proj1 O) E). Qed.
Definition named (w : world) : Prop :=
  forall i, name w = Some i -> (exists p, making (procs w p) = true) \/ exists v, v <> 0 /\ cell w i = Some v.
Lemma named_set w p x : named w -> making x = making (procs w p) \/ making x = true -> named (set_proc w p x).
Proof.
  intros I M i N. destruct (I i N) as [[q Q]|V]; [|right; exact V]. left. cbn [set_proc procs].
  destruct (Nat.eq_dec q p) as [->|D].
  - exists p. rewrite upd_eq. destruct M; congruence.
  - exists q. now rewrite upd_ne.
Qed.
Lemma named_step w e w' : inv w -> named w -> not_making w e -> step e w = Some w' -> named w'.
Proof.
  intros I J [_ O] E. destruct e; cbn [step] in E.
  - destruct p; [discriminate|]. destruct (procs w (S p)) eqn:P; try discriminate. injection E as <-.
    apply named_set; [exact J|rewrite P; auto].
  - destruct p; [discriminate|]. destruct (procs w (S p)) eqn:P; try discriminate. injection E as <-.
    apply named_set; [exact J|rewrite P; auto].
  - destruct (procs w p) as [| |o u s c] eqn:P; try discriminate.
    pose proof (pid_pos _ _ _ _ _ _ I P) as P0.
    destruct c; cbn [step_irm] in E; try discriminate; injection E as <-.
    + destruct (name w).
      * apply named_set; [exact J|rewrite P; auto].
      * intros i _. left. exists p. cbn [set_proc procs]. now rewrite upd_eq.
    + intros j _. left. exists p. cbn [set_proc procs]. now rewrite upd_eq.
    + intros j N. right. exists p. split; [exact P0|]. cbn [set_proc set_cell name cell] in *.
      destruct (i_hold w I _ _ _ _ _ _ _ P eq_refl) as [N' _]. assert (j = i) by congruence. subst j. apply upd_eq.
    + destruct (name w); apply named_set; try exact J; rewrite P; auto.
    + destruct (cell w i); apply named_set; try exact J; rewrite P; auto.
    + destruct (_ || _); apply named_set; try exact J; rewrite P; auto.
    + apply (named_set (set_pool w None)); [exact J|cbn [set_pool procs]; rewrite P; auto].
    + destruct (cell w i) as [v|]; [destruct (_ && _)|]; apply named_set; try exact J; rewrite P; auto.
    + intros j N. discriminate N.
    + destruct (name w).
      * apply named_set; [exact J|rewrite P; auto].
      * intros i _. left. exists p. cbn [set_proc procs]. now rewrite upd_eq.
    + destruct (pool w); [|apply (named_set (set_pool w (Some p)))]; try apply named_set; try exact J; cbn [set_pool procs]; rewrite P; auto.
    + apply (named_set (set_pool w None)); [exact J|cbn [set_pool procs]; rewrite P; auto].
    + intros j N. discriminate N.
    + apply named_set; [exact J|rewrite P; auto].
  - destruct (procs w p) as [| |o u s c] eqn:P; try discriminate. destruct c; try discriminate. injection E as <-.
    apply named_set; [exact J|rewrite P; auto].
  - destruct (procs w p) as [| |o u s c] eqn:P; try discriminate. destruct c; try discriminate. injection E as <-.
    apply named_set; [exact J|rewrite P; auto].
  - destruct (procs w p) as [| |o u s c] eqn:P; try discriminate; injection E as <-; (apply named_set; [exact J|rewrite P; auto]).
Qed.
Lemma named_history w : history not_making w -> named w.
Proof.
  induction 1 as [|w e w' H IH O E]; [intros i N; discriminate|].
  exact (named_step _ _ _ (inv_history _ (not_making_one _ H)) IH O E).
Qed.

(** A world without IRMds, after a history in which none was killed while it made
    the lock file, and in which no process has the pid in the lock file: an IRMd
    that is started alone runs, with its own lock and pool; if it found a lock
    file, its umask is 0. *)
Theorem lock_restart_partial w p m : history not_making w -> no_irmd w -> p <> 0 -> procs w p = Absent ->
  (forall i v, name w = Some i -> cell w i = Some v -> v <> p /\ procs w v = Absent) ->
  exists k w' i, run (start_alone p m k) w = Some w' /\ procs w' p = Irm m (match name w with None => m | Some _ => 0 end) (match name w with None => m | Some _ => 0 end) (Run i) /\
    name w' = Some i /\ cell w' i = Some p /\ pool w' = Some p /\ forall q, q <> p -> procs w' q = procs w q.
Proof.
  intros H NI P0 PA D. pose proof (inv_history _ (not_making_one _ H)) as I.
  destruct (name w) as [i|] eqn:N.
  - destruct (named_history w H i N) as [[q Q]|(v & V & C)].
    { destruct (NI q) as [X|X]; rewrite X in Q; discriminate. }
    destruct (D i v eq_refl C) as [VP VA].
    exists 11. rewrite run_start by assumption.
    erewrite run_step; [|apply upd_eq|cbn [step_irm set_proc name]; rewrite N; reflexivity].
    erewrite run_step; [|apply upd_eq|cbn [step_irm set_proc name]; rewrite N; reflexivity].
    erewrite run_step; [|apply upd_eq|cbn [step_irm set_proc cell]; rewrite C; reflexivity].
    erewrite run_step; [|apply upd_eq|].
    2:{ cbn [step_irm]. match goal with |- context[if ?b then _ else _] => assert (E : b = false) end.
        { unfold alive. cbn [set_proc procs]. rewrite !upd_ne by exact VP. rewrite VA. apply Nat.eqb_neq in V. now rewrite V. }
        rewrite E. reflexivity. }
    erewrite run_step; [|apply upd_eq|reflexivity].
    erewrite run_step; [|apply upd_eq|].
    2:{ cbn [step_irm]. cbn [set_proc set_pool cell]. rewrite C.
        match goal with |- context[negb ?a && ?b] => assert (E : b = false) end.
        { unfold alive. cbn [set_proc set_pool procs]. rewrite !upd_ne by exact VP. rewrite VA. apply Nat.eqb_neq in V. now rewrite V. }
        rewrite E, andb_false_r. reflexivity. }
    erewrite run_step; [|apply upd_eq|reflexivity].
    erewrite run_step; [|apply upd_eq|reflexivity].
    erewrite run_step; [|apply upd_eq|reflexivity].
    erewrite run_step; [|apply upd_eq|reflexivity].
    erewrite run_step; [|apply upd_eq|reflexivity].
    eexists _, (fresh w). split; [reflexivity|].
    cbn [set_proc set_cell set_pool set_name create name cell fresh pool procs]. rewrite !upd_eq.
    split; [reflexivity|]. split; [reflexivity|]. split; [reflexivity|]. split; [reflexivity|].
    intros q Q. now rewrite !upd_ne by exact Q.
  - pose proof (i_pool0 w I N) as PO.
    exists 4. rewrite run_start by assumption.
    erewrite run_step; [|apply upd_eq|cbn [step_irm set_proc name]; rewrite N; reflexivity].
    erewrite run_step; [|apply upd_eq|reflexivity].
    erewrite run_step; [|apply upd_eq|reflexivity].
    erewrite run_step; [|apply upd_eq|cbn [step_irm set_proc set_cell create pool]; rewrite PO; reflexivity].
    eexists _, (fresh w). split; [reflexivity|].
    cbn [set_proc set_cell set_pool set_name create name cell fresh pool procs]. rewrite !upd_eq.
    split; [reflexivity|]. split; [reflexivity|]. split; [reflexivity|]. split; [reflexivity|].
    intros q Q. now rewrite !upd_ne by exact Q.
Qed.
Print Assumptions lock_restart_partial.

(** A lock file without a pid: no IRMd ever runs again. *)
Definition stuck (w : world) (i : nat) : Prop := name w = Some i /\ (cell w i = None \/ cell w i = Some 0).
Definition fits3 (i : nat) (x : proc) : Prop :=
  match x with
  | Irm _ _ _ c => c = Create1 \/ c = Open \/ c = Read i \/ c = Probe i 0
  | _ => True
  end.
Lemma stuck_step w i e w' : stuck w i -> (forall p, fits3 i (procs w p)) -> step e w = Some w' ->
  stuck w' i /\ forall p, fits3 i (procs w' p).
Proof.
  intros [N C] F E.
  assert (G : forall p x, fits3 i x -> stuck (set_proc w p x) i /\ forall q, fits3 i (procs (set_proc w p x) q)).
  { intros p x X. split; [split; [exact N|exact C]|]. intros q. cbn [set_proc procs].
    destruct (Nat.eq_dec q p) as [->|D]; [rewrite upd_eq; exact X|rewrite upd_ne by exact D; apply F]. }
  destruct e; cbn [step] in E.
  - destruct p; [discriminate|]. destruct (procs w (S p)); try discriminate. injection E as <-. apply G. cbn. auto.
  - destruct p; [discriminate|]. destruct (procs w (S p)); try discriminate. injection E as <-. apply G. exact Logic.I.
  - pose proof (F p) as Fp. destruct (procs w p) as [| |o u s c]; try discriminate. cbn in Fp.
    destruct Fp as [-> | [-> | [-> | ->]]]; cbn [step_irm] in E; injection E as <-; rewrite ?N.
    + apply G. cbn. auto.
    + apply G. cbn. auto.
    + destruct C as [C|C]; rewrite C; apply G; cbn; auto.
    + apply G. cbn. auto.
  - pose proof (F p) as Fp. destruct (procs w p) as [| |o u s c]; try discriminate. cbn in Fp.
    destruct Fp as [-> | [-> | [-> | ->]]]; discriminate.
  - pose proof (F p) as Fp. destruct (procs w p) as [| |o u s c]; try discriminate. cbn in Fp.
    destruct Fp as [-> | [-> | [-> | ->]]]; discriminate.
  - destruct (procs w p); try discriminate; injection E as <-; apply G; exact Logic.I.
Qed.
Theorem lock_stuck w i : no_irmd w -> name w = Some i -> cell w i = None \/ cell w i = Some 0 ->
  forall es w', run es w = Some w' -> forall p, ~ running w' p.
Proof.
  intros NI N C.
  assert (G : forall es v w', stuck v i -> (forall p, fits3 i (procs v p)) -> run es v = Some w' -> forall p, ~ running w' p).
  { induction es as [|e es IH]; intros v w' S F E p R.
    - injection E as <-. destruct R as (o & u & s & j & R). pose proof (F p) as Fp. rewrite R in Fp. cbn in Fp.
      destruct Fp as [X|[X|[X|X]]]; discriminate.
    - cbn [run] in E. destruct (step e v) as [v'|] eqn:Ev; [|discriminate].
      destruct (stuck_step v i e v' S F Ev) as [S' F']. exact (IH v' w' S' F' E p R). }
  intros es w'. apply G; [split; assumption|]. intros p. destruct (NI p) as [X|X]; rewrite X; exact Logic.I.
Qed.
Print Assumptions lock_stuck.

(** * What is false *)
Fixpoint oks (ok : world -> event -> Prop) (es : list event) (w : world) : Prop :=
  match es with
  | [] => True
  | e :: es => ok w e /\ match step e w with Some w' => oks ok es w' | None => False end
  end.
Lemma oks_history ok es : forall w w', history ok w -> oks ok es w -> run es w = Some w' -> history ok w'.
Proof.
  induction es as [|e es IH]; intros w w' H O E.
  - injection E as <-. exact H.
  - cbn [oks run] in *. destruct O as [O1 O2]. destruct (step e w) as [v|] eqn:Ev; [|discriminate].
    exact (IH v w' (h_step _ w e v H O1 Ev) O2 E).
Qed.
Ltac nobody := let q := fresh "q" in intros q; do 6 (destruct q; [reflexivity|]); reflexivity.
Ltac ok_all := cbn -[nobody_starts no_irmd]; repeat (split; [first [exact Logic.I | reflexivity | nobody | (split; [first [exact Logic.I|nobody]|reflexivity])]|]); exact Logic.I.

(** An IRMd ends in the normal way while two are started: both run, and the pool of
    the first is lost. *)
Definition two_irmds : list event :=
  Start 1 18 :: repeat (Step 1) 4
  ++ [Start 2 18; Step 2; Step 2; Step 2]        (* 2 has read the pid of 1 *)
  ++ [Stop 1; Step 1; Step 1; Step 1]            (* 1 ends *)
  ++ [Start 3 18] ++ repeat (Step 3) 4           (* 3 runs *)
  ++ repeat (Step 2) 2.                          (* 2 finds no process 1, and removes the pool of 3 *)
Definition takes_over : list event := repeat (Step 2) 6.
Theorem lock_one_refuted : ~ (forall w, history no_kill w -> at_most_one w).
Proof.
  intros H. destruct (run (two_irmds ++ takes_over) boot) as [w|] eqn:E; [|discriminate E].
  assert (R : history no_kill w) by (apply (oks_history no_kill (two_irmds ++ takes_over) boot w); [constructor|ok_all|exact E]).
  specialize (H w R 2 3). cbv in E. injection E as <-.
  discriminate H; repeat eexists.
Qed.
Print Assumptions lock_one_refuted.
Theorem lock_pool_refuted : ~ (forall w p, history no_kill w -> running w p -> pool w = Some p).
Proof.
  intros H. destruct (run two_irmds boot) as [w|] eqn:E; [|discriminate E].
  assert (R : history no_kill w) by (apply (oks_history no_kill two_irmds boot w); [constructor|ok_all|exact E]).
  specialize (H w 3 R). cbv in E. injection E as <-.
  discriminate H; repeat eexists.
Qed.
Print Assumptions lock_pool_refuted.

(** Killed after the first or the second step of making the file. *)
Theorem lock_restart_refuted : ~ (forall w, history one_by_one w -> no_irmd w -> exists es w' p, run es w = Some w' /\ running w' p).
Proof.
  intros H. destruct (run [Start 1 18; Step 1; Die 1] boot) as [w|] eqn:E; [|discriminate E].
  assert (R : history one_by_one w) by (apply (oks_history one_by_one [Start 1 18; Step 1; Die 1] boot w); [constructor|ok_all|exact E]).
  destruct (H w R) as (es & w' & p & Er & Rp).
  - cbv in E. injection E as <-. intros q. left. do 3 (destruct q; [reflexivity|]). reflexivity.
  - refine (lock_stuck w 0 _ _ _ es w' Er p Rp); cbv in E; injection E as <-; [|reflexivity|left; reflexivity].
    intros q. left. do 3 (destruct q; [reflexivity|]). reflexivity.
Qed.
Print Assumptions lock_restart_refuted.
Example lock_stuck_no_pid : exists w, run [Start 1 18; Step 1; Step 1; Die 1] boot = Some w /\ name w = Some 0 /\ cell w 0 = Some 0.
Proof. eexists. split; [reflexivity|]. split; reflexivity. Qed.

(** Another process has got the pid of the IRMd that was killed. *)
Theorem lock_reused_refuted : ~ (forall w p m, history not_making w -> no_irmd w -> p <> 0 -> procs w p = Absent ->
  exists k w', run (start_alone p m k) w = Some w' /\ running w' p).
Proof.
  intros H.
  set (es := Start 1 18 :: repeat (Step 1) 4 ++ [Die 1; Begin 1]).
  destruct (run es boot) as [w|] eqn:E; [|discriminate E].
  assert (R : history not_making w) by (apply (oks_history not_making es boot w); [constructor|ok_all|exact E]).
  unfold es in E. cbv in E. injection E as <-.
  destruct (H _ 2 18 R) as (k & w' & Er & o & u & s & i & Rp); [|discriminate|reflexivity|].
  { intros q. do 3 (destruct q; [cbn; auto|]). left. reflexivity. }
  do 5 (destruct k; [cbv in Er; first [discriminate Er|injection Er as <-; discriminate Rp]|]).
  cbn in Er. discriminate Er.
Qed.
Print Assumptions lock_reused_refuted.

(** The umask of an IRMd that has found the lock file of one that was killed. *)
Theorem lock_umask_refuted : ~ (forall w p o u s i, history one_by_one w -> procs w p = Irm o u s (Run i) -> u = o).
Proof.
  intros H.
  set (es := Start 1 18 :: repeat (Step 1) 4 ++ [Die 1] ++ start_alone 2 18 11).
  destruct (run es boot) as [w|] eqn:E; [|discriminate E].
  assert (R : history one_by_one w) by (apply (oks_history one_by_one es boot w); [constructor|ok_all|exact E]).
  unfold es in E. cbv in E. injection E as <-.
  specialize (H _ 2 18 0 0 1 R eq_refl). discriminate H.
Qed.
Print Assumptions lock_umask_refuted.

(** * The hypotheses are met *)
Example lock_runs : exists w, history one_by_one w /\ running w 2 /\ procs w 1 = Absent /\ pool w = Some 2.
Proof.
  set (es := Start 1 18 :: repeat (Step 1) 4 ++ [Die 1] ++ start_alone 2 18 11).
  destruct (run es boot) as [w|] eqn:E; [|discriminate E]. exists w.
  split; [apply (oks_history one_by_one es boot w); [constructor|ok_all|exact E]|].
  unfold es in E. cbv in E. injection E as <-. split; [repeat eexists|split; reflexivity].
Qed.
Example lock_first_runs : exists w, history none_ends w /\ running w 2 /\ procs w 1 = Absent.
Proof.
  set (es := [Start 1 18; Start 2 18; Step 2; Step 1; Step 2; Step 1; Step 2; Step 2; Step 1; Step 1]).
  destruct (run es boot) as [w|] eqn:E; [|discriminate E]. exists w.
  split; [apply (oks_history none_ends es boot w); [constructor|ok_all|exact E]|].
  unfold es in E. cbv in E. injection E as <-. split; [repeat eexists|reflexivity].
Qed.
Example lock_restart_met : exists w, history not_making w /\ no_irmd w /\ name w = Some 0 /\ cell w 0 = Some 1 /\ procs w 1 = Absent.
Proof.
  set (es := Start 1 18 :: repeat (Step 1) 4 ++ [Die 1]).
  destruct (run es boot) as [w|] eqn:E; [|discriminate E]. exists w.
  split; [apply (oks_history not_making es boot w); [constructor|ok_all|exact E]|].
  unfold es in E. cbv in E. injection E as <-. split; [|split; [|split]; reflexivity].
  intros q. left. do 3 (destruct q; [reflexivity|]). reflexivity.
Qed.
