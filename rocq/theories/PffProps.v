(** C49-C51: the forwarding policies. *)
From Coq Require Import List NArith ZArith Lia.
From Verif Require Import PftModel PftSpec PftProofs PffModel PffSpec PffProofs.
Import ListNotations.
Open Scope Z_scope.

(** C49.  Simple forwarding: for every history, the next hop of an address is
    the first hop of its last successful add or update, -1 if it has none. *)
Theorem simple_nhop_exact p g a : simple_reach p g ->
  simple_nhop p a = Some (match g a with Some (h :: _) => h | _ => -1 end).
Proof. exact (simple_nhop_lemma p g a). Qed.
Print Assumptions simple_nhop_exact.

(** C49.  Adding succeeds exactly for absent addresses, updating and deleting
    exactly for present ones. *)
Theorem simple_results_exact p g a h t : simple_reach p g ->
  (exists p', simple_add p a (h :: t) = Some (p', match g a with None => 0 | Some _ => -1 end)) /\
  (exists p', simple_update p a (h :: t) = Some (p', match g a with None => -1 | Some _ => 0 end)) /\
  (exists p', simple_del p a = Some (p', match g a with None => -1 | Some _ => 0 end)).
Proof. exact (simple_results_lemma p g a h t). Qed.
Print Assumptions simple_results_exact.


Lemma simple_ex_lemma : exists p, simple_reach p (tset (tset (fun _ => None) 5 (Some [1; 2])) 9 (Some [4])).
Proof.
  destruct create_rep as (p0 & E0 & _). pose proof (sr_create p0 E0) as H0.
  destruct (simple_results_lemma p0 _ 5%N 1 [2] H0) as ((p1 & E1) & _).
  pose proof (sr_add _ _ _ _ _ _ H0 E1) as H1. cbn [Z.eqb] in H1.
  destruct (simple_results_lemma p1 _ 9%N 4 [] H1) as ((p2 & E2) & _).
  pose proof (sr_add _ _ _ _ _ _ H1 E2) as H2. cbn in H2. exists p2. exact H2.
Qed.
Example simple_ex : exists p g, simple_reach p g /\ g 5%N = Some [1; 2] /\ g 9%N = Some [4] /\ g 6%N = None.
Proof. destruct simple_ex_lemma as (p & H). exists p. eexists. split; [exact H|]. cbn. auto. Qed.

(** C50.  Multipath forwarding takes the hops of an address in turn: the i-th
    packet since the entry was made goes to hop i modulo their number. *)
Theorem multipath_round_robin_partial p g sent a l : mp_reach p g sent -> g a = Some l ->
  (forall i, (i < length (sent a))%nat -> nth_error (sent a) i = nth_error l (i mod length l)) /\
  exists p' fd, mp_nhop p a = Some (p', fd) /\ nth_error l (length (sent a) mod length l) = Some fd.
Proof. exact (mp_round_robin p g sent a l). Qed.
Print Assumptions multipath_round_robin_partial.

Theorem multipath_absent p g sent a : mp_reach p g sent -> g a = None -> mp_nhop p a = Some (p, -1).
Proof. exact (mp_absent p g sent a). Qed.
Print Assumptions multipath_absent.

(** C50 refuted for update: replacing an entry by one with two or more hops
    writes outside the allocated block, in every state. *)
Theorem multipath_update_refuted p a h1 h2 t : mp_update p a (h1 :: h2 :: t) = None.
Proof. exact (mp_update_ub p a h1 h2 t). Qed.
Print Assumptions multipath_update_refuted.

Example multipath_ex : exists p g sent, mp_reach p g sent /\ g 5%N = Some [1; 2; 3] /\ sent 5%N = [1; 2; 3; 1].
Proof.
  destruct create_rep as (p0 & E0 & _). pose proof (mr_create p0 E0) as H0.
  pose proof (mp_add_spec p0 _ _ 5%N 1 [2; 3] (mp_reach_inv _ _ _ H0)) as (p1 & E1 & _).
  pose proof (mr_add _ _ _ _ _ _ _ H0 E1) as H1. cbn [Z.eqb] in H1.
  Ltac nx H := let p := fresh "p" in let fd := fresh "fd" in let E := fresh "E" in let F := fresh "F" in
    destruct (mp_round_robin _ _ _ 5%N [1; 2; 3] H eq_refl) as (_ & p & fd & E & F);
    cbn in F; injection F as <-; apply (mr_nhop _ _ _ _ _ _ H) in E; clear H; rename E into H; cbn in H.
  nx H1. nx H1. nx H1. nx H1.
  do 3 eexists. split; [exact H1|]. cbn. auto.
Qed.

(** C51.  Alternate forwarding: the next hop is always one of the hops given
    for the address. *)
Theorem alternate_nhop_given s g dn a : alt_reach s g dn ->
  match g a with
  | None => alt_nhop s a = Some (-1)
  | Some l => exists h, alt_nhop s a = Some h /\ In h l
  end.
Proof. exact (alt_nhop_given s g dn a). Qed.
Print Assumptions alternate_nhop_given.

(** C51.  When an interface goes down, addresses using it move to a hop that is
    not down if they have one; other addresses are unaffected.
    Missing (refuted below): that this stays so after later events. *)
Theorem alternate_down_partial s g dn fd : alt_reach s g dn ->
  exists s', alt_change s fd false = Some (s', 0) /\
    forall a l, g a = Some l -> exists c c', alt_nhop s a = Some c /\ alt_nhop s' a = Some c' /\
      In c' l /\ (c <> fd -> c' = c) /\
      (c = fd -> (exists x, In x l /\ ~ In x (fd :: dn)) -> ~ In c' (fd :: dn)).
Proof. exact (alt_down_lemma s g dn fd). Qed.
Print Assumptions alternate_down_partial.

(** C51.  When a primary hop that was down comes up, it is used again; addresses
    with another primary keep their hop. *)
Theorem alternate_up s g dn fd : alt_reach s g dn ->
  exists s' r, alt_change s fd true = Some (s', r) /\ (r = 0 <-> In fd dn) /\
    forall a l, g a = Some l -> exists c c', alt_nhop s a = Some c /\ alt_nhop s' a = Some c' /\
      In c' l /\ (hd_error l <> Some fd -> c' = c) /\
      (In fd dn -> hd_error l = Some fd -> c' = fd).
Proof. exact (alt_up_lemma s g dn fd). Qed.
Print Assumptions alternate_up.

(** Concrete histories on a fresh table. *)
Inductive aop := AAdd (a : N) (l : list Z) | ADown (fd : Z) | AUp (fd : Z).
Fixpoint arun (s : alt) (g : table) (dn : list Z) (ops : list aop) : option (alt * table * list Z) :=
  match ops with
  | [] => Some (s, g, dn)
  | AAdd a l :: t => match alt_add s a l with
                     | Some (s', r) => arun s' (if r =? 0 then tset g a (Some l) else g) dn t
                     | None => None end
  | ADown fd :: t => match alt_change s fd false with Some (s', _) => arun s' g (fd :: dn) t | None => None end
  | AUp fd :: t => match alt_change s fd true with
                   | Some (s', _) => arun s' g (remove1 Z.eqb fd dn) t | None => None end
  end.
Lemma arun_reach ops : forall s g dn r, alt_reach s g dn -> arun s g dn ops = Some r ->
  alt_reach (fst (fst r)) (snd (fst r)) (snd r).
Proof.
  induction ops as [|[a l|fd|fd] ops IH]; cbn [arun]; intros s g dn r H E.
  - injection E as <-. exact H.
  - destruct (alt_add s a l) as [[s' z]|] eqn:E1; [|discriminate]. eapply IH; [|exact E]. econstructor; eauto.
  - destruct (alt_change s fd false) as [[s' z]|] eqn:E1; [|discriminate]. eapply IH; [|exact E]. econstructor; eauto.
  - destruct (alt_change s fd true) as [[s' z]|] eqn:E1; [|discriminate]. eapply IH; [|exact E]. econstructor; eauto.
Qed.

Lemma alt_witness ops (P : alt -> table -> list Z -> Prop) :
  match alt_create with
  | Some s => match arun s (fun _ => None) [] ops with Some (s', g, dn) => P s' g dn | None => False end
  | None => False
  end -> exists s g dn, alt_reach s g dn /\ P s g dn.
Proof.
  intros K. destruct alt_create as [s|] eqn:E; [|destruct K].
  destruct (arun s (fun _ => None) [] ops) as [[[s' g] dn]|] eqn:E2; [|destruct K].
  exists s', g, dn. split; auto. apply (arun_reach _ _ _ _ _ (ar_create s E) E2).
Qed.

(** C51 refuted: hop 2 of an address goes down, then hop 1, then hop 2 comes up:
    the address stays on hop 1, which is down, although hop 2 is up. *)
Theorem alternate_uses_live_hop_refuted :
  exists s g dn, alt_reach s g dn /\
    g 5%N = Some [1; 2] /\ alt_nhop s 5%N = Some 1 /\ In 1 dn /\ ~ In 2 dn.
Proof.
  apply (alt_witness [AAdd 5 [1; 2]; ADown 2; ADown 1; AUp 2]).
  vm_compute. repeat split; auto. intros [H|[]]; discriminate.
Qed.
Print Assumptions alternate_uses_live_hop_refuted.

(** C51 refuted: an entry added while its primary hop is down uses that hop. *)
Theorem alternate_add_uses_down_hop_refuted :
  exists s g dn, alt_reach s g dn /\ (In 1 dn /\ ~ In 2 dn /\
    match alt_add s 5%N [1; 2] with
    | Some (s', r) => r = 0 /\ alt_nhop s' 5%N = Some 1
    | None => False
    end).
Proof.
  apply (alt_witness [ADown 1]).
  vm_compute. repeat split; auto. intros [H|[]]; discriminate.
Qed.
Print Assumptions alternate_add_uses_down_hop_refuted.

Example alternate_ex : exists s g dn, alt_reach s g dn /\
    g 5%N = Some [1; 2; 3] /\ g 6%N = Some [2; 3] /\ dn = [2; 1] /\
    alt_nhop s 5%N = Some 3 /\ alt_nhop s 6%N = Some 3.
Proof.
  apply (alt_witness [AAdd 5 [1; 2; 3]; AAdd 6 [2; 3]; ADown 1; ADown 2]).
  vm_compute. repeat split; auto.
Qed.
