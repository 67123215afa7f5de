(** Proofs and theorems about the lockless ring (C90). *)
From Coq Require Import List NArith Bool Lia Arith ZifyBool ZifyNat ZifyN.
From Verif Require Import RbllModel RbllSpec.
Import ListNotations.
Open Scope N_scope.

Section Facts.
Variable lg : N.
Hypothesis LG : 1 <= lg.
Notation sz := (size lg).

Lemma sz2 : 2 <= sz.
Proof. unfold size. replace 2 with (2 ^ 1) at 1 by reflexivity. apply N.pow_le_mono_r; lia. Qed.
Lemma mask : forall a, N.land a (sz - 1) = a mod sz.
Proof. intros a. unfold size. rewrite N.sub_1_r, <- N.ones_equiv. apply N.land_ones. Qed.
Lemma next_mod : forall i, next lg (i mod sz) = (i + 1) mod sz.
Proof. intros i. unfold next. rewrite mask. pose proof sz2. rewrite N.add_mod_idemp_l by lia. reflexivity. Qed.
Lemma mod_neq : forall a b, a < b -> b < a + sz -> a mod sz <> b mod sz.
Proof.
  intros a b A B E. pose proof sz2 as Z.
  pose proof (N.div_mod a sz ltac:(lia)) as A1. pose proof (N.div_mod b sz ltac:(lia)) as B1.
  rewrite E in A1. set (q := a / sz) in *. set (p := b / sz) in *. set (m := b mod sz) in *. clearbody q p m.
  clear E. assert (q < p) by nia. assert (sz * q + sz <= sz * p) by nia. nia.
Qed.
Lemma used_mod : forall h t, t <= h -> h < t + sz -> used lg (h mod sz) (t mod sz) = h - t.
Proof.
  intros h t A B. unfold used. rewrite mask. pose proof sz2 as Z.
  pose proof (N.mod_upper_bound t sz ltac:(lia)) as T. pose proof (N.mod_upper_bound h sz ltac:(lia)) as Hh.
  pose proof (N.div_mod h sz ltac:(lia)) as H1. pose proof (N.div_mod t sz ltac:(lia)) as T1.
  assert (E : h - t < sz) by lia. symmetry.
  set (q := h / sz) in *. set (p := t / sz) in *. set (m := h mod sz) in *. set (n := t mod sz) in *. clearbody q p m n.
  assert (Q : q = p \/ q = p + 1) by nia.
  destruct Q as [Q|Q]; subst q.
  - replace (m + sz - n) with ((h - t) + 1 * sz) by nia. rewrite N.mod_add by lia. symmetry. apply N.mod_small. exact E.
  - replace (m + sz - n) with (h - t) by nia. symmetry. apply N.mod_small. exact E.
Qed.
Lemma free_mod : forall h t, t <= h -> h < t + sz -> free lg (h mod sz) (t mod sz) = (h + 1 <? t + sz).
Proof. intros h t A B. unfold free. rewrite used_mod by assumption. lia. Qed.
Lemma eq_mod : forall h t, t <= h -> h < t + sz -> (h mod sz =? t mod sz) = (h =? t).
Proof.
  intros h t A B. destruct (N.eqb_spec h t) as [E|E]; [subst; apply N.eqb_refl|].
  apply N.eqb_neq. intros X. symmetry in X. revert X. apply mod_neq; lia.
Qed.
End Facts.

(** ** The invariant of one writer [w] and one reader [r] *)
Section Inv.
Variables (lg : N) (w r : nat).
Notation sz := (size lg).

Definition cnt (s : st) : N := N.of_nat (length (pub s)).
Definition room (s : st) : Prop := cnt s + 1 < taken s + sz.

(* where the writer is *)
Definition WI (s : st) (p : pc) : Prop :=
  match p with
  | Idle | WA _ | WB _ | WC _ | WF _ | WN _ | BL _ _ | BA _ _ | BF _ _ _ | BW _ _ | BR _ _ _
  | BE _ true | BE2 _ true _ | BN _ true | BU (Wrote _) | BU EDown | BU ETimedOut | BU ENotAlloc => True
  | BB _ => has (acl s) FLOWDOWN = true
  | WF2 _ h | BF2 _ _ _ h => h = head s
  | WE _ | BE _ false | WH _ _ | BN _ false | BS _ => room s
  | WE2 _ h | WS _ _ h | BE2 _ false h | BS2 _ h => room s /\ h = head s
  | WX x _ h | BH2 x h => room s /\ h = head s /\ slot s h = x
  | BH x => room s /\ slot s (head s) = x
  | _ => False
  end.
(* the entry of the writer's call, and the one published already *)
Definition wx (p : pc) : option N :=
  match p with
  | WA x | WB x | WC x | WF x | WF2 x _ | WE x | WE2 x _ | WH x _ | WS x _ _ | WX x _ _ | WN x
  | BL x _ | BA x _ | BB x | BC x | BF x _ _ | BF2 x _ _ _ | BW x _ | BR x _ _ | BE x _ | BE2 x _ _
  | BN x _ | BS x | BS2 x _ | BH x | BH2 x _ | BU (Wrote x) => Some x
  | _ => None
  end.
Definition pend (p : pc) : list N := match p with WN x | BU (Wrote x) => [x] | _ => [] end.

(* where the reader is; [n] writes had returned before it called *)
Definition loaded (s : st) (n h : N) (P : N -> Prop) : Prop :=
  exists k, h = k mod sz /\ taken s <= k /\ k <= cnt s /\ n <= k /\ P k.
Definition RI (n : N) (s : st) (p : pc) : Prop :=
  match p with
  | RE Locked => taken s < cnt s
  | RE2 Locked h => loaded s 0 h (fun k => taken s < k)
  | RA Locked | RB Locked => False
  | RE2 _ h => loaded s n h (fun _ => True)
  | RA _ | RB _ => n <= taken s
  | QE2 _ _ h => loaded s 0 h (fun _ => True)
  | RT _ => taken s < cnt s
  | RX _ o => taken s < cnt s /\ o = tail s
  | RN _ o | RL _ o => 1 <= taken s /\ o = (taken s - 1) mod sz /\
                       nth_error (pub s) (N.to_nat (taken s - 1)) = Some (slot s o)
  | Idle | RE _ | QL _ | QE _ _ | QW _ | QR _ _ | QU ETimedOut => True
  | QU (Got x) => 1 <= taken s /\ nth_error (pub s) (N.to_nat (taken s - 1)) = Some x
  | _ => False
  end.
Definition infl (p : pc) : N := match p with RN _ _ | RL _ _ | QU (Got _) => 1 | _ => 0 end.

Record inv (nb : bool) (h : hist) (s : st) : Prop := {
  i_head : head s = cnt s mod sz;
  i_tail : tail s = taken s mod sz;
  i_le : taken s <= cnt s;
  i_lt : cnt s < taken s + sz;
  i_slot : forall i, taken s <= i -> i < cnt s -> nth_error (pub s) (N.to_nat i) = Some (slot s (i mod sz));
  i_idle : forall t, t <> w -> t <> r -> pcs s t = Idle;
  i_w : WI s (pcs s w);
  i_nb : nb = true -> match pcs s w with
                      | BL _ _ | BA _ _ | BB _ | BF _ _ _ | BF2 _ _ _ _ | BW _ _ | BR _ _ _ | BE _ _ | BE2 _ _ _
                      | BN _ _ | BS _ | BS2 _ _ | BH _ | BH2 _ _ | BU _ => False | _ => True end;
  i_acl : nb = false -> acl s = 0 \/ has (acl s) FLOWDOWN = true;
  i_cur : forall x, wx (pcs s w) = Some x -> current w h = [x];
  i_pub : pub s = wrote h ++ pend (pcs s w);
  i_bef : N.of_nat (length (wrote (before_call r h))) <= cnt s;
  i_r : RI (N.of_nat (length (wrote (before_call r h)))) s (pcs s r);
  i_infl : infl (pcs s r) <= taken s;
  i_got : got h = firstn (N.to_nat (taken s - infl (pcs s r))) (pub s)
}.

Definition disc (nb : bool) (e : ev) : Prop :=
  match e with
  | Call t (Write _) => t = w
  | Call t (WriteB _ _) => t = w /\ nb = false
  | Call t _ => t = r
  | SetAcl v => nb = true \/ N.land v FLOWDOWN <> 0
  | _ => True
  end.
End Inv.

Section Steps.
Variables (lg : N) (w r : nat) (nb : bool).
Hypothesis LG : 1 <= lg.
Hypothesis WR : w <> r.
Notation sz := (size lg).
Notation inv := (inv lg w r nb).

Definition same_mem (s s' : st) : Prop :=
  slot s' = slot s /\ head s' = head s /\ tail s' = tail s /\ acl s' = acl s /\ pub s' = pub s /\ taken s' = taken s.
Definition nbok (p : pc) : Prop :=
  nb = true -> match p with
               | BL _ _ | BA _ _ | BB _ | BF _ _ _ | BF2 _ _ _ _ | BW _ _ | BR _ _ _ | BE _ _ | BE2 _ _ _
               | BN _ _ | BS _ | BS2 _ _ | BH _ | BH2 _ _ | BU _ => False | _ => True end.
Definition not_call (e : ev) : Prop := match e with Call _ _ => False | _ => True end.

Lemma WI_mem : forall s s' p, same_mem s s' -> WI lg s p -> WI lg s' p.
Proof.
  intros s s' p (A & B & C & D & E & F) H. destruct p; cbn [WI] in *; unfold room, cnt in *;
    rewrite ?A, ?B, ?C, ?D, ?E, ?F; try exact H.
Qed.
Lemma RI_mem : forall n s s' p, same_mem s s' -> RI lg n s p -> RI lg n s' p.
Proof.
  intros n s s' p (A & B & C & D & E & F) H. destruct p; cbn [RI] in *; unfold loaded, cnt in *;
    rewrite ?A, ?B, ?C, ?D, ?E, ?F; try exact H.
Qed.
Lemma RI_woken : forall n s p, RI lg n s p -> RI lg n s (woken p).
Proof. intros n s p H. destruct p; try exact H; exact I. Qed.
Lemma infl_woken : forall p, infl (woken p) = infl p.
Proof. intros p. destruct p; reflexivity. Qed.

Lemma current_none : forall e h, not_call e -> current w ((e, None) :: h) = current w h.
Proof. intros [] h H; try reflexivity. elim H. Qed.
Lemma before_none : forall e o h, not_call e -> before_call r ((e, o) :: h) = before_call r h.
Proof. intros e o h H. destruct e; try reflexivity. elim H. Qed.
Lemma wrote_none : forall e h, wrote ((e, None) :: h) = wrote h.
Proof. reflexivity. Qed.

(* the writer moves without touching the memory *)
Lemma writer_quiet : forall h s s' p e,
  inv h s -> not_call e -> same_mem s s' -> pcs s' w = p ->
  (pcs s' r = pcs s r \/ pcs s' r = woken (pcs s r)) ->
  (forall t, t <> w -> t <> r -> pcs s' t = Idle) ->
  WI lg s p -> nbok p -> (forall x, wx p = Some x -> wx (pcs s w) = Some x) -> pend p = pend (pcs s w) ->
  inv ((e, None) :: h) s'.
Proof.
  intros h s s' p e [] NC M P R O W0 NB X PD.
  pose proof M as (A & B & C & D & E & F).
  constructor; unfold cnt in *; rewrite ?A, ?B, ?C, ?D, ?E, ?F, ?P, ?(current_none e h NC), ?(before_none e None h NC); try assumption.
  - apply (WI_mem s s' p M W0).
  - intros x Hx. apply i_cur0, X, Hx.
  - rewrite PD. exact i_pub0.
  - apply (RI_mem _ s s' _ M). destruct R as [R|R]; rewrite R; [exact i_r0|apply RI_woken; exact i_r0].
  - destruct R as [R|R]; rewrite R, ?infl_woken; exact i_infl0.
  - destruct R as [R|R]; rewrite R, ?infl_woken; exact i_got0.
Qed.

(* the writer returns without publishing in this step *)
Lemma writer_returns : forall h s s' o,
  inv h s -> same_mem s s' -> pcs s' w = Idle ->
  (pcs s' r = pcs s r \/ pcs s' r = woken (pcs s r)) ->
  (forall t, t <> w -> t <> r -> pcs s' t = Idle) ->
  (match o with Wrote x => pend (pcs s w) = [x] | Got _ => False | _ => pend (pcs s w) = [] end) ->
  inv ((Step w, Some o) :: h) s'.
Proof.
  intros h s s' o [] M P R O PD.
  pose proof M as (A & B & C & D & E & F).
  assert (G : got ((Step w, Some o) :: h) = got h) by (destruct o; try reflexivity; elim PD).
  assert (V : pub s = wrote ((Step w, Some o) :: h)).
  { rewrite i_pub0. destruct o; cbn [wrote]; try (rewrite PD, app_nil_r; reflexivity); [rewrite PD; reflexivity|elim PD]. }
  assert (BC : before_call r ((Step w, Some o) :: h) = before_call r h) by reflexivity.
  constructor; unfold cnt in *; rewrite ?A, ?B, ?C, ?D, ?E, ?F, ?P, ?BC, ?G; try assumption.
  - exact I.
  - intros _. exact I.
  - intros x Hx. discriminate Hx.
  - cbn [pend]. rewrite app_nil_r. exact V.
  - apply (RI_mem _ s s' _ M). destruct R as [R|R]; rewrite R; [exact i_r0|apply RI_woken; exact i_r0].
  - destruct R as [R|R]; rewrite R, ?infl_woken; exact i_infl0.
  - destruct R as [R|R]; rewrite R, ?infl_woken; exact i_got0.
Qed.

(* the writer puts its entry where head points *)
Lemma writer_stores : forall h s s' p x,
  inv h s -> room lg s ->
  slot s' = (fun i => if i =? head s then x else slot s i) ->
  head s' = head s -> tail s' = tail s -> acl s' = acl s -> pub s' = pub s -> taken s' = taken s ->
  pcs s' w = p -> (forall t, t <> w -> pcs s' t = pcs s t) ->
  WI lg s' p -> nbok p -> (forall y, wx p = Some y -> wx (pcs s w) = Some y) -> pend p = pend (pcs s w) ->
  inv ((Step w, None) :: h) s'.
Proof.
  intros h s s' p x [] RM A B C D E F P O W0 NB X PD. unfold room, cnt in RM.
  assert (OR : pcs s' r = pcs s r) by (apply O; congruence).
  assert (SL : forall i, taken s <= i + 1 -> i < cnt s -> slot s' (i mod sz) = slot s (i mod sz)).
  { intros i I1 I2. rewrite A. destruct (N.eqb_spec (i mod sz) (head s)) as [Q|Q]; [|reflexivity].
    rewrite i_head0 in Q. exfalso. revert Q.
    apply (mod_neq lg LG); unfold cnt in *; clear - RM I1 I2; lia. }
  constructor; unfold cnt in *; rewrite ?B, ?C, ?D, ?E, ?F, ?P, ?OR; try assumption.
  - intros i I1 I2. rewrite SL by (clear - I1 I2; lia). apply i_slot0; assumption.
  - intros t T1 T2. rewrite O by exact T1. apply i_idle0; assumption.
  - intros y Hy. change (current w h = [y]). apply i_cur0, X, Hy.
  - rewrite PD. exact i_pub0.
  - change (before_call r ((Step w, None) :: h)) with (before_call r h).
    destruct (pcs s r); cbn [RI] in *; unfold loaded, cnt in *; rewrite ?C, ?E, ?F; try exact i_r0.
    + destruct i_r0 as (R1 & R2 & R3). repeat split; try assumption. rewrite R2, SL by (clear - R1 i_le0; lia). rewrite <- R2. exact R3.
    + destruct i_r0 as (R1 & R2 & R3). repeat split; try assumption. rewrite R2, SL by (clear - R1 i_le0; lia). rewrite <- R2. exact R3.
Qed.

(* head passes the entry *)
Lemma writer_publishes : forall h s s' p x o,
  inv h s -> room lg s -> slot s (head s) = x -> wx (pcs s w) = Some x -> pend (pcs s w) = [] ->
  slot s' = slot s -> head s' = next lg (head s) -> tail s' = tail s -> acl s' = acl s ->
  pub s' = pub s ++ [x] -> taken s' = taken s ->
  pcs s' w = p -> (forall t, t <> w -> pcs s' t = pcs s t) ->
  WI lg s' p -> nbok p ->
  ((o = None /\ pend p = [x] /\ wx p = Some x) \/ (o = Some (Wrote x) /\ p = Idle)) ->
  inv ((Step w, o) :: h) s'.
Proof.
  intros h s s' p x o [] RM SX WX PN A B C D E F P O W0 NB V. unfold room, cnt in RM.
  assert (OR : pcs s' r = pcs s r) by (apply O; congruence).
  assert (G : got ((Step w, o) :: h) = got h) by (destruct V as [(-> & _)|(-> & _)]; reflexivity).
  assert (BC : before_call r ((Step w, o) :: h) = before_call r h) by reflexivity.
  assert (L : N.of_nat (length (pub s')) = N.of_nat (length (pub s)) + 1) by (rewrite E, app_length; cbn [length]; lia).
  rewrite PN, app_nil_r in i_pub0.
  constructor; unfold cnt in *; rewrite ?C, ?D, ?F, ?P, ?OR, ?L, ?BC, ?G; try assumption; try (clear - i_le0 i_lt0 RM i_bef0; lia).
  - rewrite B, i_head0. apply next_mod. exact LG.
  - intros i I1 I2. rewrite E, A. destruct (N.ltb_spec i (N.of_nat (length (pub s)))) as [J|J].
    + rewrite nth_error_app1 by lia. apply i_slot0; assumption.
    + assert (K : i = N.of_nat (length (pub s))) by lia. rewrite nth_error_app2 by lia.
      replace (N.to_nat i - length (pub s))%nat with 0%nat by lia. cbn [nth_error].
      rewrite K, <- i_head0, SX. reflexivity.
  - intros t T1 T2. rewrite O by exact T1. apply i_idle0; assumption.
  - intros y Hy. destruct V as [(V1 & V2 & V3)|(V1 & V2)]; [|rewrite V2 in Hy; discriminate Hy].
    rewrite V1. change (current w h = [y]). rewrite V3 in Hy. injection Hy as <-. apply i_cur0. exact WX.
  - rewrite E. destruct V as [(V1 & V2 & V3)|(V1 & V2)].
    + rewrite V1, V2. cbn [wrote]. rewrite i_pub0. reflexivity.
    + rewrite V1, V2. cbn [wrote pend]. rewrite app_nil_r, i_pub0. reflexivity.
  - clear i_got0 i_infl0 i_cur0 i_bef0 i_slot0 i_acl0 i_nb0 V i_head0 i_tail0 i_idle0 i_w0 i_pub0 P O OR G BC SX WX W0 NB PN B D LG WR.
    destruct (pcs s r);
      repeat match goal with m : mode |- _ => destruct m | q : out |- _ => destruct q end;
      cbn [RI] in *; unfold loaded, cnt in *; rewrite ?A, ?C, ?F, ?L; try exact i_r0; try lia;
      first [ destruct i_r0 as (k & K1 & K2 & K3 & K4 & K5); exists k; repeat split; try assumption; lia
            | destruct i_r0 as (R1 & R2 & R3); repeat split; try assumption;
              rewrite E, nth_error_app1 by lia; exact R3
            | destruct i_r0 as (R1 & R2); split; [lia|exact R2]
            | destruct i_r0 as (R1 & R2); split; [exact R1|]; rewrite E, nth_error_app1 by lia; exact R2 ].
  - rewrite i_got0, E. rewrite firstn_app. replace (N.to_nat (taken s - infl (pcs s r)) - length (pub s))%nat with 0%nat by lia.
    cbn [firstn]. rewrite app_nil_r. reflexivity.
Qed.

(* the reader moves without touching the memory *)
Lemma reader_quiet : forall h s s' p e,
  inv h s -> not_call e -> same_mem s s' -> pcs s' r = p ->
  (forall t, t <> r -> pcs s' t = pcs s t) ->
  RI lg (N.of_nat (length (wrote (before_call r h)))) s p -> infl p = infl (pcs s r) ->
  inv ((e, None) :: h) s'.
Proof.
  intros h s s' p e [] NC M P O R0 IF.
  pose proof M as (A & B & C & D & E & F). pose proof (O w WR) as OW.
  constructor; unfold cnt in *; rewrite ?A, ?B, ?C, ?D, ?E, ?F, ?P, ?OW, ?(current_none e h NC), ?(before_none e None h NC); try assumption.
  - intros t T1 T2. rewrite O by exact T2. apply i_idle0; assumption.
  - apply (WI_mem s s' _ M). exact i_w0.
  - apply (RI_mem _ s s' _ M). exact R0.
  - rewrite IF. exact i_infl0.
  - rewrite IF. exact i_got0.
Qed.

(* tail passes an entry *)
Lemma reader_takes : forall h s s' p m,
  inv h s -> pcs s r = RX m (tail s) -> taken s < cnt s -> p = RN m (tail s) ->
  slot s' = slot s -> head s' = head s -> tail s' = next lg (tail s) -> acl s' = acl s ->
  pub s' = pub s -> taken s' = taken s + 1 ->
  pcs s' r = p -> (forall t, t <> r -> pcs s' t = pcs s t) ->
  inv ((Step r, None) :: h) s'.
Proof.
  intros h s s' p m [] PR LT EP A B C D E F P O. pose proof (O w WR) as OW.
  rewrite EP in P. rewrite PR in *. cbn [infl] in *.
  constructor; unfold cnt in *; rewrite ?B, ?D, ?E, ?F, ?P, ?OW; try assumption; try (clear - i_le0 i_lt0 LT; lia).
  - rewrite C, i_tail0. apply next_mod. exact LG.
  - intros i I1 I2. rewrite A. apply i_slot0; lia.
  - intros t T1 T2. rewrite O by exact T2. apply i_idle0; assumption.
  - clear i_got0 i_cur0 i_head0 i_tail0 i_idle0 i_slot0 i_acl0 i_nb0 i_pub0 i_r0 P O OW EP PR LG WR i_infl0 i_bef0 C. destruct (pcs s w); try (match goal with q : bool |- _ => lazymatch q with nb => fail | _ => destruct q end end);
      try (match goal with q : out |- _ => destruct q end);
      cbn [WI] in *; unfold room, cnt in *; rewrite ?A, ?B, ?D, ?E, ?F; try exact i_w0; try lia;
      first [ destruct i_w0 as (R1 & R2 & R3); repeat split; try assumption; lia
            | destruct i_w0 as (R1 & R2); split; [lia|exact R2] ].
  - cbn [RI]. rewrite A, E, F. split; [lia|]. replace (taken s + 1 - 1) with (taken s) by lia.
    split; [exact i_tail0|]. rewrite i_tail0. apply i_slot0; lia.
  - cbn [infl]. lia.
  - cbn [infl got]. replace (taken s + 1 - 1) with (taken s - 0) by lia. exact i_got0.
Qed.

Lemma firstn_last : forall (l : list N) n x, (1 <= n)%nat -> nth_error l (n - 1) = Some x ->
  firstn n l = firstn (n - 1) l ++ [x].
Proof.
  intros l n x N1. revert l. destruct n as [|n]; [lia|]. replace (S n - 1)%nat with n by lia. clear N1.
  induction n as [|n IH]; intros [|y l] H; try discriminate H.
  - injection H as <-. reflexivity.
  - cbn [nth_error] in H. specialize (IH l H). cbn [firstn] in *. rewrite IH. reflexivity.
Qed.

(* the reader returns *)
Lemma reader_returns : forall h s s' o,
  inv h s -> same_mem s s' -> pcs s' r = Idle ->
  (forall t, t <> r -> pcs s' t = pcs s t) ->
  (match o with
   | Got x => infl (pcs s r) = 1 /\ nth_error (pub s) (N.to_nat (taken s - 1)) = Some x
   | Wrote _ => False
   | _ => infl (pcs s r) = 0
   end) ->
  inv ((Step r, Some o) :: h) s'.
Proof.
  intros h s s' o [] M P O PD. pose proof (O w WR) as OW.
  pose proof M as (A & B & C & D & E & F).
  assert (G : wrote ((Step r, Some o) :: h) = wrote h) by (destruct o; try reflexivity; elim PD).
  assert (CU : current w ((Step r, Some o) :: h) = current w h).
  { cbn [current]. destruct (Nat.eqb_spec r w) as [Q|Q]; [congruence|reflexivity]. }
  assert (BC : before_call r ((Step r, Some o) :: h) = before_call r h) by reflexivity.
  constructor; unfold cnt in *; rewrite ?A, ?B, ?C, ?D, ?E, ?F, ?P, ?OW, ?BC, ?CU, ?G; try assumption.
  - intros t T1 T2. rewrite O by exact T2. apply i_idle0; assumption.
  - apply (WI_mem s s' _ M). exact i_w0.
  - exact I.
  - cbn [infl]. lia.
  - cbn [infl]. destruct o; cbn [got]; try (rewrite PD in i_got0; exact i_got0); [elim PD|].
    destruct PD as (P1 & P2). rewrite P1 in *. rewrite i_got0.
    replace (N.to_nat (taken s - 0)) with (N.to_nat (taken s)) by lia.
    rewrite (firstn_last (pub s) (N.to_nat (taken s)) x); [|lia|].
    + replace (N.to_nat (taken s) - 1)%nat with (N.to_nat (taken s - 1)) by lia. reflexivity.
    + rewrite <- P2. f_equal. lia.
Qed.

Lemma upd_same : forall (f : nat -> pc) t p, upd f t p t = p.
Proof. intros. unfold upd. rewrite Nat.eqb_refl. reflexivity. Qed.
Lemma upd_other : forall (f : nat -> pc) t p u, u <> t -> upd f t p u = f u.
Proof. intros. unfold upd. destruct (Nat.eqb_spec u t); [contradiction|reflexivity]. Qed.

Lemma wrote_pub : forall h s, inv h s -> N.of_nat (length (wrote h)) <= cnt s.
Proof. intros h s []. unfold cnt. rewrite i_pub0, app_length. lia. Qed.

Lemma keep_call : forall h s t o s' x, inv h s -> disc w r nb (Call t o) ->
  step lg s (Call t o) = Some (s', x) -> inv ((Call t o, x) :: h) s'.
Proof.
  intros h s t o s' x J DI H. pose proof (wrote_pub h s J) as WP. destruct J. cbn [step] in H.
  destruct (pcs s t) eqn:PT; try discriminate H. injection H as <- <-.
  assert (K : t = w /\ (exists y, wx (enter o) = Some y /\ current w ((Call t o, None) :: h) = [y]) /\ pend (enter o) = [] /\ WI lg s (enter o) /\ nbok (enter o) \/
              t = r /\ enter o <> Idle /\ RI lg 0 s (enter o) /\ infl (enter o) = 0 /\ RI lg (N.of_nat (length (wrote h))) s (enter o)).
  { destruct o; cbn [disc] in DI.
    - left. subst t. split; [reflexivity|]. split; [exists x; cbn [current]; rewrite Nat.eqb_refl; split; reflexivity|].
      repeat split; intros _; exact I.
    - left. destruct DI as (-> & NB). split; [reflexivity|]. split; [exists x; cbn [current]; rewrite Nat.eqb_refl; split; reflexivity|].
      repeat split. intros Q. congruence.
    - right. repeat split; [exact DI|discriminate].
    - right. repeat split; [exact DI|discriminate]. }
  destruct K as [(-> & (y & Y1 & Y2) & K2 & K3 & K4)|(-> & K1 & K2 & K3 & K4)].
  - assert (BC : before_call r ((Call w o, None) :: h) = before_call r h).
    { cbn [before_call]. destruct (Nat.eqb_spec w r); [contradiction|reflexivity]. }
    rewrite PT in *. cbn [pend] in i_pub0.
    constructor; unfold cnt in *; cbn [go slot head tail acl pub taken pcs]; rewrite ?BC, ?upd_same, ?(upd_other _ w _ r) by congruence; try assumption.
    + intros t T1 T2. rewrite upd_other by exact T1. apply i_idle0; assumption.
    + intros z Z. rewrite Y2. congruence.
    + rewrite K2. exact i_pub0.
  - assert (BC : before_call r ((Call r o, None) :: h) = h).
    { cbn [before_call]. rewrite Nat.eqb_refl. reflexivity. }
    assert (CU : current w ((Call r o, None) :: h) = current w h).
    { cbn [current]. destruct (Nat.eqb_spec r w); [congruence|reflexivity]. }
    rewrite PT in *. cbn [infl] in *.
    constructor; unfold cnt in *; cbn [go slot head tail acl pub taken pcs]; rewrite ?BC, ?CU, ?upd_same, ?(upd_other _ r _ w) by congruence; try assumption.
    + intros t T1 T2. rewrite upd_other by exact T2. apply i_idle0; assumption.
    + rewrite K3. lia.
    + rewrite K3. exact i_got0.
Qed.

Lemma keep_acl : forall h s v, inv h s -> disc w r nb (SetAcl v) ->
  inv ((SetAcl v, None) :: h) (St (slot s) (head s) (tail s) v (lock s) (pcs s) (pub s) (taken s)).
Proof.
  intros h s v [] DI. cbn [disc] in DI.
  constructor; cbn [slot head tail acl pub taken pcs]; try assumption.
  - clear - i_w0 i_nb0 DI. destruct (pcs s w); cbn [WI] in *; try exact i_w0.
    cbn [acl]. destruct nb; [elim (i_nb0 eq_refl)|]. destruct DI as [DI|DI]; [discriminate|].
    unfold has. destruct (N.eqb_spec (N.land v FLOWDOWN) 0); [contradiction|reflexivity].
  - intros NB. destruct DI as [DI|DI]; [congruence|]. right. unfold has.
    destruct (N.eqb_spec (N.land v FLOWDOWN) 0); [contradiction|reflexivity].
Qed.

Lemma same_go : forall s t p, same_mem s (go s t p).
Proof. intros. repeat split; reflexivity. Qed.
Lemma same_lock : forall s t p l, same_mem s (go (with_lock s l) t p).
Proof. intros. repeat split; reflexivity. Qed.
Lemma same_bcast : forall s t p, same_mem s (go (bcast_add s) t p).
Proof. intros. repeat split; reflexivity. Qed.

(* the writer moves in one of the quiet ways *)
Ltac wq :=
  match goal with J : inv ?h ?s |- inv ((_, None) :: ?h) ?s' =>
    eapply (writer_quiet h s s' _ _ J);
    [ exact I | repeat split; reflexivity
    | cbn [go with_lock bcast_add pcs]; apply upd_same
    | cbn [go with_lock bcast_add pcs]; rewrite upd_other by congruence;
      solve [left; reflexivity | right; reflexivity]
    | let t := fresh "t" in intros t ? ?; cbn [go with_lock bcast_add pcs]; rewrite upd_other by assumption;
      rewrite ?(i_idle _ _ _ _ _ _ J t) by assumption; reflexivity
    | | | | ] end.
Ltac wr :=
  match goal with J : inv ?h ?s |- inv ((_, Some ?o) :: ?h) ?s' =>
    eapply (writer_returns h s s' o J);
    [ repeat split; reflexivity
    | cbn [go with_lock bcast_add pcs]; apply upd_same
    | cbn [go with_lock bcast_add pcs]; rewrite upd_other by congruence;
      solve [left; reflexivity | right; reflexivity]
    | let t := fresh "t" in intros t ? ?; cbn [go with_lock bcast_add pcs]; rewrite upd_other by assumption;
      rewrite ?(i_idle _ _ _ _ _ _ J t) by assumption; reflexivity
    | ] end.

Lemma keep_writer : forall h s s' o, inv h s -> access lg s w = Some (s', o) -> inv ((Step w, o) :: h) s'.
Proof.
  intros h s s' o J H. unfold access in H.
  pose proof (i_w _ _ _ _ _ _ J) as W0. pose proof (i_nb _ _ _ _ _ _ J) as NB. fold (nbok (pcs s w)) in NB.
  pose proof (i_head _ _ _ _ _ _ J) as HD. pose proof (i_tail _ _ _ _ _ _ J) as TL.
  pose proof (i_le _ _ _ _ _ _ J) as LE. pose proof (i_lt _ _ _ _ _ _ J) as LT.
  pose proof (i_acl _ _ _ _ _ _ J) as AC.
  assert (FR : free lg (head s) (tail s) = true -> room lg s).
  { rewrite HD, TL, free_mod by assumption. unfold room. lia. }
  destruct (pcs s w) eqn:PW; cbn [WI] in W0; try (elim W0; fail); try discriminate H;
    cbv zeta in H; unfold nbok in NB.
  - (* WA *) injection H as <- <-. wq; rewrite ?PW; destruct (acl s =? 0); try exact I; try (intros _; exact I); try (intros ? Q; exact Q); reflexivity.
  - (* WB *) destruct (has (acl s) FLOWDOWN); injection H as <- <-.
    + wr. rewrite PW. reflexivity.
    + wq; rewrite ?PW; try exact I; try (intros _; exact I); try (intros ? Q; exact Q); reflexivity.
  - (* WC *) destruct (has (acl s) RDONLY); injection H as <- <-.
    + wr. rewrite PW. reflexivity.
    + wq; rewrite ?PW; try exact I; try (intros _; exact I); try (intros ? Q; exact Q); reflexivity.
  - (* WF *) injection H as <- <-. wq; rewrite ?PW; try reflexivity; try (intros _; exact I); intros ? Q; exact Q.
  - (* WF2 *) subst h0. destruct (free lg (head s) (tail s)); injection H as <- <-.
    + wq; rewrite ?PW; try reflexivity; try (intros _; exact I); try (intros ? Q; exact Q). apply FR. reflexivity.
    + wr. rewrite PW. reflexivity.
  - (* WE *) injection H as <- <-. wq; rewrite ?PW; try (intros _; exact I); try (intros ? Q; exact Q); try reflexivity. split; [exact W0|reflexivity].
  - (* WE2 *) injection H as <- <-. wq; rewrite ?PW; try (intros _; exact I); try (intros ? Q; exact Q); try reflexivity. apply W0.
  - (* WH *) injection H as <- <-. wq; rewrite ?PW; try (intros _; exact I); try (intros ? Q; exact Q); try reflexivity. split; [exact W0|reflexivity].
  - (* WS *) destruct W0 as (W1 & W2). injection H as <- <-. rewrite W2.
    eapply (writer_stores h s _ (WX x e (head s)) x J W1); try reflexivity.
    + cbn [pcs]. apply upd_same.
    + intros t T. cbn [pcs]. apply upd_other. exact T.
    + cbn [WI slot head]. split; [exact W1|]. split; [reflexivity|]. rewrite N.eqb_refl. reflexivity.
    + intros _. exact I.
    + intros y Y. rewrite PW. exact Y.
    + rewrite PW. reflexivity.
  - (* WX *) destruct W0 as (W1 & W2 & W3). subst o0. rewrite N.eqb_refl in H.
    assert (G : forall p o', ((o' = None /\ pend p = [x] /\ wx p = Some x) \/ (o' = Some (Wrote x) /\ p = Idle)) ->
      WI lg s p -> (p = Idle \/ p = WN x) ->
      inv ((Step w, o') :: h) (go (St (slot s) (next lg (head s)) (tail s) (acl s) (lock s) (pcs s) (pub s ++ [x]) (taken s)) w p)).
    { intros p o' V P1 P2. eapply (writer_publishes h s _ p x o' J W1 W3); try reflexivity; rewrite ?PW; try reflexivity.
      - cbn [go pcs]. apply upd_same.
      - intros t T. cbn [go pcs]. apply upd_other. exact T.
      - destruct P2 as [-> | ->]; exact I.
      - destruct P2 as [-> | ->]; intros _; exact I.
      - exact V. }
    destruct e; injection H as <- <-; apply G.
    + left. repeat split.
    + exact I.
    + right. reflexivity.
    + right. split; reflexivity.
    + exact I.
    + left. reflexivity.
  - (* WN *) injection H as <- <-. wr. rewrite PW. reflexivity.
  - (* BL *) destruct (lock s); [discriminate H|]. injection H as <- <-.
    wq; rewrite ?PW; try exact I; try (intros Q; elim (NB Q)); try (intros ? Q; exact Q); reflexivity.
  - (* BA *) injection H as <- <-. destruct (Bool.bool_dec nb true) as [EN|EN]; [elim (NB EN)|]. apply Bool.not_true_is_false in EN.
    wq; rewrite ?PW; destruct (N.eqb_spec (acl s) 0) as [A|A]; try exact I; try (intros Q; congruence); try (intros ? Q; exact Q); try reflexivity.
    destruct (AC EN) as [AC'|AC']; [contradiction|exact AC'].
  - (* BB *) rewrite W0 in H. injection H as <- <-.
    wq; rewrite ?PW; try exact I; try (intros Q; elim (NB Q)); try (intros ? Q; discriminate Q); reflexivity.
  - (* BF *) injection H as <- <-. wq; rewrite ?PW; try reflexivity; try (intros Q; elim (NB Q)); intros ? Q; exact Q.
  - (* BF2 *) subst h0. destruct (free lg (head s) (tail s)) eqn:FE; [|destruct to]; injection H as <- <-.
    + wq; rewrite ?PW; try (intros Q; elim (NB Q)); try (intros ? Q; exact Q); try reflexivity.
      cbn [WI]. destruct to; [exact I|apply FR; reflexivity].
    + wq; rewrite ?PW; try exact I; try (intros Q; elim (NB Q)); try (intros ? Q; exact Q); reflexivity.
    + wq; rewrite ?PW; try exact I; try (intros Q; elim (NB Q)); try (intros ? Q; exact Q); reflexivity.
  - (* BR *) destruct (lock s); [discriminate H|]. injection H as <- <-.
    wq; rewrite ?PW; try exact I; try (intros Q; elim (NB Q)); try (intros ? Q; exact Q); reflexivity.
  - (* BE *) injection H as <- <-. wq; rewrite ?PW; try (intros Q; elim (NB Q)); try (intros ? Q; exact Q); try reflexivity.
    cbn [WI]. destruct to; [exact I|split; [exact W0|reflexivity]].
  - (* BE2 *) destruct (h0 =? tail s); injection H as <- <-.
    + wq; rewrite ?PW; try (intros Q; elim (NB Q)); try (intros ? Q; exact Q); try reflexivity.
      cbn [WI]. destruct to; [exact I|apply W0].
    + wq; rewrite ?PW; try (intros Q; elim (NB Q)).
      * destruct to; [exact I|apply W0].
      * intros y Y. destruct to; [discriminate Y|exact Y].
      * destruct to; reflexivity.
  - (* BN *) injection H as <- <-. wq; rewrite ?PW; try (intros Q; elim (NB Q)).
    + destruct to; [exact I|exact W0].
    + intros y Y. destruct to; [discriminate Y|exact Y].
    + destruct to; reflexivity.
  - (* BS *) injection H as <- <-. wq; rewrite ?PW; try (intros Q; elim (NB Q)); try (intros ? Q; exact Q); try reflexivity. split; [exact W0|reflexivity].
  - (* BS2 *) destruct W0 as (W1 & W2). injection H as <- <-. rewrite W2.
    eapply (writer_stores h s _ (BH x) x J W1); try reflexivity.
    + cbn [pcs]. apply upd_same.
    + intros t T. cbn [pcs]. apply upd_other. exact T.
    + cbn [WI slot head]. split; [exact W1|]. rewrite N.eqb_refl. reflexivity.
    + intros Q. elim (NB Q).
    + intros y Y. rewrite PW. exact Y.
    + rewrite PW. reflexivity.
  - (* BH *) injection H as <- <-. wq; rewrite ?PW; try (intros Q; elim (NB Q)); try (intros ? Q; exact Q); try reflexivity.
    cbn [WI]. destruct W0 as (W1 & W2). repeat split; assumption.
  - (* BH2 *) destruct W0 as (W1 & W2 & W3). injection H as <- <-. subst h0.
    eapply (writer_publishes h s _ (BU (Wrote x)) x None J W1 W3); try reflexivity; rewrite ?PW; try reflexivity.
    + cbn [pcs]. apply upd_same.
    + intros t T. cbn [pcs]. apply upd_other. exact T.
    + intros Q. elim (NB Q).
    + left. repeat split.
  - (* BU *) injection H as <- <-. wr. rewrite PW. destruct r0; try reflexivity; elim W0.
Qed.

(* the reader moves in one of the quiet ways *)
Ltac rq :=
  match goal with J : inv ?h ?s |- inv ((_, None) :: ?h) ?s' =>
    eapply (reader_quiet h s s' _ _ J);
    [ exact I | repeat split; reflexivity
    | cbn [go with_lock pcs]; apply upd_same
    | intros ? ?; cbn [go with_lock pcs]; apply upd_other; assumption
    | | ] end.
Ltac rr :=
  match goal with J : inv ?h ?s |- inv ((_, Some ?o) :: ?h) ?s' =>
    eapply (reader_returns h s s' o J);
    [ repeat split; reflexivity
    | cbn [go with_lock pcs]; apply upd_same
    | intros ? ?; cbn [go with_lock pcs]; apply upd_other; assumption
    | ] end.

Lemma keep_reader : forall h s s' o, inv h s -> access lg s r = Some (s', o) -> inv ((Step r, o) :: h) s'.
Proof.
  intros h s s' o J H. unfold access in H.
  pose proof (i_r _ _ _ _ _ _ J) as R0.
  pose proof (i_head _ _ _ _ _ _ J) as HD. pose proof (i_tail _ _ _ _ _ _ J) as TL.
  pose proof (i_le _ _ _ _ _ _ J) as LE. pose proof (i_lt _ _ _ _ _ _ J) as LT.
  pose proof (i_bef _ _ _ _ _ _ J) as BF.
  destruct (pcs s r) eqn:PR; cbn [RI] in R0; try (elim R0; fail); try discriminate H;
    cbv zeta in H.
  - (* RE *) injection H as <- <-. rq; [|rewrite PR; reflexivity].
    destruct m; cbn [RI]; unfold loaded; exists (cnt s); repeat split; try assumption; lia.
  - (* RE2 *) assert (K : exists k, h0 = k mod sz /\ taken s <= k /\ k <= cnt s /\
        (m <> Locked -> N.of_nat (length (wrote (before_call r h))) <= k) /\ (m = Locked -> taken s < k)).
    { destruct m; destruct R0 as (k & K1 & K2 & K3 & K4 & K5); exists k; repeat split; try assumption; try (intros; congruence); intros _; assumption. }
    destruct K as (k & K1 & K2 & K3 & K4 & K5). rewrite K1, TL, eq_mod in H by (assumption || lia).
    destruct (N.eqb_spec k (taken s)) as [E|E]; injection H as <- <-; rq; try (rewrite PR; reflexivity).
    + destruct m; cbn [RI]; [specialize (K4 ltac:(discriminate)); lia|specialize (K4 ltac:(discriminate)); lia|specialize (K5 eq_refl); lia].
    + destruct m; cbn [RI]; lia.
  - (* RA *) destruct (has (acl s) FLOWDOWN); injection H as H.
    + destruct m; cbn [read_ends] in H; try (elim R0; fail); injection H as <- <-; rr; rewrite PR; reflexivity.
    + subst s' o. rq; [|rewrite PR; reflexivity]. exact R0.
  - (* RB *) destruct (has (acl s) FLOWPEER); injection H as H.
    + destruct m; cbn [read_ends] in H; try (elim R0; fail); injection H as <- <-; rr; rewrite PR; reflexivity.
    + destruct m; cbn [read_ends] in H; try (elim R0; fail); injection H as <- <-; [rr|rq]; rewrite ?PR; try reflexivity.
  - (* RT *) injection H as <- <-. rq; [|rewrite PR; reflexivity]. destruct m; split; assumption || reflexivity.
  - (* RX *) destruct R0 as (R1 & R2). subst o0. rewrite N.eqb_refl in H. injection H as <- <-.
    eapply (reader_takes h s _ _ m J PR R1 eq_refl); try reflexivity.
    + cbn [pcs]. apply upd_same.
    + intros t T. cbn [pcs]. apply upd_other. exact T.
  - (* RN *) injection H as <- <-. rq; [|rewrite PR; reflexivity]. exact R0.
  - (* RL *) injection H as H. destruct R0 as (R1 & R2 & R3).
    destruct m; cbn [read_ends] in H; injection H as <- <-; [rr|rr|rq]; rewrite ?PR; try reflexivity.
    + split; [reflexivity|exact R3].
    + split; [reflexivity|exact R3].
    + split; assumption.
  - (* QL *) destruct (lock s); [discriminate H|]. injection H as <- <-. rq; [exact I|rewrite PR; reflexivity].
  - (* QE *) injection H as <- <-. rq; [|rewrite PR; reflexivity]. cbn [RI]. unfold loaded.
    exists (cnt s). repeat split; try assumption; lia.
  - (* QE2 *) destruct to; [injection H as <- <-; rq; [exact I|rewrite PR; reflexivity]|].
    destruct R0 as (k & K1 & K2 & K3 & K4 & K5). rewrite K1, TL, eq_mod in H by (assumption || lia).
    destruct (N.eqb_spec k (taken s)) as [E|E]; injection H as <- <-; rq; try (rewrite PR; reflexivity).
    + exact I.
    + cbn [RI]. lia.
  - (* QR *) destruct (lock s); [discriminate H|]. injection H as <- <-. rq; [exact I|rewrite PR; reflexivity].
  - (* QU *) injection H as <- <-. rr. rewrite PR. destruct r0; try (elim R0; fail); try reflexivity.
    destruct R0 as (R1 & R2). split; [reflexivity|exact R2].
Qed.

Lemma keep_wait : forall h s s' o e t, e = Timeout t \/ e = Spurious t -> inv h s -> step lg s e = Some (s', o) -> inv ((e, o) :: h) s'.
Proof.
  intros h s s' o e t E J H.
  pose proof (i_nb _ _ _ _ _ _ J) as NB.
  destruct (Nat.eq_dec t w) as [T|T]; [subst t|destruct (Nat.eq_dec t r) as [T2|T2]; [subst t|]].
  - pose proof (i_w _ _ _ _ _ _ J) as W0.
    destruct E as [-> | ->]; cbn [step] in H; destruct (pcs s w) eqn:PW; try discriminate H; try (elim W0; fail).
    + destruct tm; [|discriminate H]. injection H as <- <-.
      wq; rewrite ?PW; try exact I; try (intros Q; elim (NB Q)); try (intros ? Q; exact Q); reflexivity.
    + injection H as <- <-.
      wq; rewrite ?PW; try exact I; try (intros Q; elim (NB Q)); try (intros ? Q; exact Q); reflexivity.
  - pose proof (i_r _ _ _ _ _ _ J) as R0.
    destruct E as [-> | ->]; cbn [step] in H; destruct (pcs s r) eqn:PR; try discriminate H; try (elim R0; fail).
    + destruct tm; [|discriminate H]. injection H as <- <-. rq; [exact I|rewrite PR; reflexivity].
    + injection H as <- <-. rq; [exact I|rewrite PR; reflexivity].
  - pose proof (i_idle _ _ _ _ _ _ J t T T2) as P. destruct E as [-> | ->]; cbn [step] in H; rewrite P in H; discriminate H.
Qed.

Lemma keep : forall h s e s' o, inv h s -> disc w r nb e -> step lg s e = Some (s', o) -> inv ((e, o) :: h) s'.
Proof.
  intros h s e s' o J DI H. destruct e as [t c|t|t|t|v].
  - apply (keep_call h s t c s' o J DI H).
  - cbn [step] in H. destruct (Nat.eq_dec t w) as [T|T]; [subst t; apply (keep_writer h s s' o J H)|].
    destruct (Nat.eq_dec t r) as [T2|T2]; [subst t; apply (keep_reader h s s' o J H)|].
    pose proof (i_idle _ _ _ _ _ _ J t T T2) as P. unfold access in H. rewrite P in H. discriminate H.
  - apply (keep_wait h s s' o _ t (or_introl eq_refl) J H).
  - apply (keep_wait h s s' o _ t (or_intror eq_refl) J H).
  - cbn [step] in H. injection H as <- <-. apply (keep_acl h s v J DI).
Qed.

Lemma inv_init : inv [] init.
Proof.
  pose proof (sz2 lg LG) as Z.
  constructor; unfold cnt; cbn [init head tail taken pub slot pcs acl length wrote current before_call got WI RI wx pend infl app];
    try reflexivity; try lia; try exact I; try (intros; discriminate).
  all: try (symmetry; apply N.mod_small; lia).
Qed.

Lemma inv_runs : forall h s, runs lg h s -> (forall e o, In (e, o) h -> disc w r nb e) -> inv h s.
Proof.
  intros h s H. induction H as [|h s e s' o H IH ST]; intros DI; [exact inv_init|].
  apply (keep h s e s' o); [|apply (DI e o); left; reflexivity|exact ST].
  apply IH. intros e' o' IN. apply (DI e' o'). right. exact IN.
Qed.
End Steps.

(** ** C90: one writer, one reader *)

Lemma disc_of : forall w r h, writes_only w h -> reads_only r h -> only_down h \/ no_write_b h ->
  exists nb, forall e o, In (e, o) h -> disc w r nb e.
Proof.
  intros w r h W R [D|D].
  - exists false. intros e o IN. destruct e as [t c|t|t|t|v]; cbn [disc]; try exact I.
    + pose proof (W t c o IN) as W1. pose proof (R t c o IN) as R1. destruct c; try assumption. split; [exact W1|reflexivity].
    + right. apply (D v o IN).
  - exists true. intros e o IN. destruct e as [t c|t|t|t|v]; cbn [disc]; try exact I.
    + pose proof (W t c o IN) as W1. pose proof (R t c o IN) as R1. destruct c; try assumption. elim (D t x tm o IN).
    + left. reflexivity.
Qed.

Lemma pend_cases : forall p, pend p = [] \/ exists x, pend p = [x] /\ wx p = Some x.
Proof.
  intros p. destruct p; try (left; reflexivity).
  - right. exists x. split; reflexivity.
  - destruct r; try (left; reflexivity). right. exists x. split; reflexivity.
Qed.

(** In every interleaving the reads return the entries of the writes in the
    order of the writes, each once: what was read is a prefix of what was
    written, where the write in progress may already count.  No assertion
    fails. *)
Theorem rbll_in_order : forall lg w r h s, 1 <= lg -> w <> r -> runs lg h s ->
  writes_only w h -> reads_only r h -> only_down h \/ no_write_b h ->
  (exists rest, got h ++ rest = wrote h \/ got h ++ rest = wrote h ++ current w h) /\
  ~ In Abort (flat_map (fun x => match snd x with Some o => [o] | None => [] end) h).
Proof.
  intros lg w r h s L NE RU W R D. destruct (disc_of w r h W R D) as (nb & DI). clear W R D. split.
  - destruct (inv_runs lg w r nb L NE h s RU DI).
    exists (skipn (N.to_nat (taken s - infl (pcs s r))) (pub s)).
    rewrite i_got0, firstn_skipn, i_pub0.
    destruct (pend_cases (pcs s w)) as [P|(x & P & X)]; rewrite P, ?app_nil_r; [left; reflexivity|].
    right. rewrite (i_cur0 x X). reflexivity.
  - induction RU as [|h s e s' o RU IH ST]; [intros []|].
    assert (DI' : forall e o, In (e, o) h -> disc w r nb e) by (intros e' o' IN; apply (DI e' o'); right; exact IN).
    cbn [flat_map snd]. intros IN. apply in_app_or in IN. destruct IN as [IN|IN]; [|apply (IH DI' IN)].
    destruct o as [o|]; [|elim IN]. destruct IN as [IN|[]]. subst o.
    assert (RU' : runs lg ((e, Some Abort) :: h) s') by (eapply runs_step; eassumption).
    pose proof (inv_runs lg w r nb L NE h s RU DI') as J.
    pose proof (inv_runs lg w r nb L NE _ s' RU' DI) as J'.
    destruct e as [t c|t|t|t|v]; cbn [step] in ST.
    + destruct (pcs s t); discriminate ST.
    + destruct (Nat.eq_dec t w) as [T|T]; [subst t|destruct (Nat.eq_dec t r) as [T2|T2]; [subst t|]].
      * pose proof (i_w _ _ _ _ _ _ J') as W'. pose proof (i_w _ _ _ _ _ _ J) as W0. unfold access in ST.
        destruct (pcs s w) eqn:P; cbn [WI] in W0; try (elim W0; fail); try discriminate ST;
          repeat match type of ST with
          | context [if ?b then _ else _] => destruct b; try discriminate ST
          | context [match ?b with Some _ => _ | None => _ end] => destruct b; try discriminate ST
          end.
        injection ST as _ E. subst r0. exact W0.
      * pose proof (i_r _ _ _ _ _ _ J) as R0. unfold access in ST.
        destruct (pcs s r) eqn:P; cbn [RI] in R0; try (elim R0; fail); try discriminate ST;
          repeat match type of ST with
          | context [if ?b then _ else _] => destruct b; try discriminate ST
          | context [match ?b with Some _ => _ | None => _ end] => destruct b; try discriminate ST
          end.
        all: try (destruct m; cbn [read_ends] in ST; try (elim R0; fail); discriminate ST).
        injection ST as _ E. subst r0. exact R0.
      * pose proof (i_idle _ _ _ _ _ _ J t T T2) as P. unfold access in ST. rewrite P in ST. discriminate ST.
    + destruct (pcs s t); try discriminate ST; destruct tm; discriminate ST.
    + destruct (pcs s t); discriminate ST.
    + discriminate ST.
Qed.
Print Assumptions rbll_in_order.

Lemma last_step : forall lg e o h s, runs lg ((e, o) :: h) s ->
  exists s0, runs lg h s0 /\ step lg s0 e = Some (s, o).
Proof. intros lg e o h s H. inversion H as [|h0 s0 e0 s1 o0 R ST]; subst. exists s0. split; assumption. Qed.
Lemma only_tail : forall w r e o h, writes_only w ((e, o) :: h) -> reads_only r ((e, o) :: h) ->
  only_down ((e, o) :: h) \/ no_write_b ((e, o) :: h) ->
  writes_only w h /\ reads_only r h /\ (only_down h \/ no_write_b h).
Proof.
  intros w r e o h W R D. split; [|split].
  - intros t c x IN. apply (W t c x). right. exact IN.
  - intros t c x IN. apply (R t c x). right. exact IN.
  - destruct D as [D|D]; [left|right].
    + intros v x IN. apply (D v x). right. exact IN.
    + intros t x tm y IN. apply (D t x tm y). right. exact IN.
Qed.

(** Nothing is lost: a read that reports that there is nothing (now, or any
    more) has been told so after all the entries of the writes that had
    returned before it was called were read. *)
Theorem rbll_nothing_lost : forall lg w r h s o, 1 <= lg -> w <> r ->
  runs lg ((Step r, Some o) :: h) s ->
  writes_only w h -> reads_only r h -> only_down h \/ no_write_b h ->
  o = EAgain \/ o = EDown \/ o = EPeer ->
  (length (wrote (before_call r h)) <= length (got h))%nat.
Proof.
  intros lg w r h s o L NE RU W R D O. destruct (last_step _ _ _ _ _ RU) as (s0 & R0 & ST).
  destruct (disc_of w r h W R D) as (nb & DI). destruct (inv_runs lg w r nb L NE h s0 R0 DI).
  cbn [step] in ST. unfold access in ST. rewrite i_got0. unfold cnt in *.
  destruct (pcs s0 r) eqn:P; cbn [RI] in i_r0; try (elim i_r0; fail); try discriminate ST;
    repeat match type of ST with
    | context [if ?b then _ else _] => destruct b; try discriminate ST
    | context [match ?b with Some _ => _ | None => _ end] => destruct b; try discriminate ST
    end; cbn [infl].
  all: try (destruct m; cbn [read_ends] in ST; try (elim i_r0; fail); try discriminate ST; rewrite firstn_length; lia).
  - destruct m; cbn [read_ends] in ST; injection ST as _ E; destruct O as [O|[O|O]]; congruence.
  - injection ST as _ E. subst r0. destruct O as [-> | [-> | ->]]; elim i_r0.
Qed.
Print Assumptions rbll_nothing_lost.

(** A write reports a full ring only when all places but one hold entries
    that were not yet read. *)
Theorem rbll_full_is_full : forall lg w r h s, 1 <= lg -> w <> r ->
  runs lg ((Step w, Some EAgain) :: h) s ->
  writes_only w h -> reads_only r h -> only_down h \/ no_write_b h ->
  N.of_nat (length (got h)) + (2 ^ lg - 1) <= N.of_nat (length (wrote h)).
Proof.
  intros lg w r h s L NE RU W R D. destruct (last_step _ _ _ _ _ RU) as (s0 & R0 & ST).
  destruct (disc_of w r h W R D) as (nb & DI). destruct (inv_runs lg w r nb L NE h s0 R0 DI).
  cbn [step] in ST. unfold access in ST. rewrite i_got0. unfold cnt in *.
  destruct (pcs s0 w) eqn:P; cbn [WI] in i_w0; try (elim i_w0; fail); try discriminate ST;
    repeat match type of ST with
    | context [if ?b then _ else _] => destruct b eqn:?; try discriminate ST
    | context [match ?b with Some _ => _ | None => _ end] => destruct b; try discriminate ST
    end.
  - subst h0. cbn [pend] in i_pub0. rewrite app_nil_r in i_pub0.
    match goal with Q : free _ _ _ = false |- _ => rewrite i_head0, i_tail0, free_mod in Q by assumption; rename Q into FQ end.
    rewrite firstn_length. unfold size in *. rewrite i_pub0 in *. clear - FQ i_le0 i_lt0.
    generalize (infl (pcs s0 r)). intros j. apply N.ltb_ge in FQ.
    set (n := length (wrote h)) in *. set (t := taken s0) in *. set (z := 2 ^ lg) in *. clearbody n t z. lia.
  - injection ST as _ E. subst. elim i_w0.
Qed.
Print Assumptions rbll_full_is_full.

(** ** More than one writer or reader, and blocking calls *)

(* a schedule, run from the start *)
Fixpoint exec (lg : N) (h : hist) (s : st) (l : list ev) : option (hist * st) :=
  match l with
  | [] => Some (h, s)
  | e :: l => match step lg s e with Some (s', o) => exec lg ((e, o) :: h) s' l | None => None end
  end.
Lemma exec_runs : forall lg l h s h' s', runs lg h s -> exec lg h s l = Some (h', s') -> runs lg h' s'.
Proof.
  intros lg l. induction l as [|e l IH]; intros h s h' s' R E; cbn [exec] in E.
  - injection E as <- <-. exact R.
  - destruct (step lg s e) as [[s1 o]|] eqn:ST; [|discriminate E].
    apply (IH _ _ _ _ (runs_step lg h s e s1 o R ST) E).
Qed.
Definition outcome (lg : N) (l : list ev) : hist :=
  match exec lg [] init l with Some (h, _) => h | None => [] end.
Lemma outcome_runs : forall lg l, match exec lg [] init l with Some _ => true | None => false end = true ->
  exists s, exec lg [] init l = Some (outcome lg l, s) /\ runs lg (outcome lg l) s.
Proof.
  intros lg l H. unfold outcome. destruct (exec lg [] init l) as [[h s]|] eqn:E; [|discriminate H].
  exists s. split; [reflexivity|]. apply (exec_runs lg l [] init h s (runs_init lg) E).
Qed.

Definition wonly (w : nat) (h : hist) : bool :=
  forallb (fun x => match fst x with Call t (Write _) | Call t (WriteB _ _) => Nat.eqb t w | _ => true end) h.
Definition ronly (w : nat) (h : hist) : bool :=
  forallb (fun x => match fst x with Call t Read | Call t (ReadB _) => Nat.eqb t w | _ => true end) h.
Lemma wonly_ok : forall w h, wonly w h = true -> writes_only w h.
Proof.
  intros w h H t o r IN. unfold wonly in H. rewrite forallb_forall in H. specialize (H _ IN). cbn [fst] in H.
  destruct o; try exact I; apply Nat.eqb_eq; exact H.
Qed.
Lemma ronly_ok : forall w h, ronly w h = true -> reads_only w h.
Proof.
  intros w h H t o r IN. unfold ronly in H. rewrite forallb_forall in H. specialize (H _ IN). cbn [fst] in H.
  destruct o; try exact I; apply Nat.eqb_eq; exact H.
Qed.
Definition acl_set (h : hist) : Prop := exists v o, In (SetAcl v, o) h.
Definition asets (h : hist) : bool := existsb (fun x => match fst x with SetAcl _ => true | _ => false end) h.
Lemma asets_ok : forall h, asets h = false -> ~ acl_set h.
Proof.
  intros h H (v & o & IN). assert (E : asets h = true); [|congruence].
  unfold asets. rewrite existsb_exists. exists (SetAcl v, o). split; [exact IN|reflexivity].
Qed.
Definition nwb (h : hist) : bool :=
  forallb (fun x => match fst x with Call _ (WriteB _ _) => false | _ => true end) h.
Lemma no_wb_ok : forall h, nwb h = true -> no_write_b h.
Proof.
  intros h H t x tm r IN. unfold nwb in H. rewrite forallb_forall in H. specialize (H _ IN). discriminate H.
Qed.
Definition nw (h : hist) : bool :=
  forallb (fun x => match fst x with Call _ (WriteB _ _) | Call _ (Write _) => false | _ => true end) h.
Lemma nw_ok : forall h, nw h = true -> ~ write_called h.
Proof.
  intros h H (t & o & r & IN & C). unfold nw in H. rewrite forallb_forall in H. specialize (H _ IN). cbn [fst] in H.
  destruct o; try (elim C; fail); discriminate H.
Qed.
Lemma in_got : forall x h, existsb (N.eqb x) (got h) = true -> In x (got h).
Proof.
  intros x h H. rewrite existsb_exists in H. destruct H as (y & Y & E). apply N.eqb_eq in E. subst y. exact Y.
Qed.
Definition called_with (x : N) (h : hist) : bool :=
  existsb (fun e => match fst e with Call _ (Write y) | Call _ (WriteB y _) => y =? x | _ => false end) h.
Definition handed (x : N) (h : hist) : Prop :=
  exists t o, In (Call t (Write x), o) h \/ exists tm, In (Call t (WriteB x tm), o) h.
Lemma handed_called : forall x h, handed x h -> called_with x h = true.
Proof.
  intros x h (t & o & H). unfold called_with. rewrite existsb_exists.
  destruct H as [H|(tm & H)]; (eexists; split; [exact H|]); cbn [fst]; apply N.eqb_refl.
Qed.

Fixpoint times (n : nat) (e : ev) : list ev := match n with O => [] | S n => e :: times n e end.
Arguments times (n)%nat_scope e.

(** Two writers: refuted.  A read returns an entry that nobody wrote, and
    the entry of a write that returned 0 is lost: the second writer stores
    over the entry of the first before head moves, and does not store again
    after it lost the exchange. *)
Definition two_writers : list ev :=
  Call 0 (Write 11) :: times 6 (Step 0) ++ Call 2 (Write 22) :: times 6 (Step 2) ++
  times 1 (Step 0) ++ times 1 (Step 2) ++ times 2 (Step 0) ++ times 3 (Step 2) ++
  Call 1 Read :: times 6 (Step 1) ++ Call 1 Read :: times 6 (Step 1).
Theorem rbll_two_writers_refuted :
  ~ (forall h s x, runs 10 h s -> reads_only 1 h -> no_write_b h -> ~ acl_set h ->
       In x (got h) -> handed x h).
Proof.
  intros H. destruct (outcome_runs 10 two_writers) as (s & _ & R); [vm_compute; reflexivity|].
  assert (F : called_with 0 (outcome 10 two_writers) = false) by (vm_compute; reflexivity).
  assert (K : handed 0 (outcome 10 two_writers)).
  { apply (H _ s 0 R).
    - apply ronly_ok. vm_compute. reflexivity.
    - apply no_wb_ok. vm_compute. reflexivity.
    - apply asets_ok. vm_compute. reflexivity.
    - apply in_got. vm_compute. reflexivity. }
  apply handed_called in K. rewrite F in K. discriminate K.
Qed.
Print Assumptions rbll_two_writers_refuted.

(** Two readers: refuted.  Both see one entry, both move tail, and one of
    them returns what happens to be in the next place. *)
Definition two_readers : list ev :=
  Call 0 (Write 11) :: times 9 (Step 0) ++
  Call 1 Read :: times 2 (Step 1) ++ Call 2 Read :: times 2 (Step 2) ++ times 4 (Step 1) ++ times 4 (Step 2).
Theorem rbll_two_readers_refuted :
  ~ (forall h s x, runs 10 h s -> writes_only 0 h -> no_write_b h -> ~ acl_set h ->
       In x (got h) -> handed x h).
Proof.
  intros H. destruct (outcome_runs 10 two_readers) as (s & _ & R); [vm_compute; reflexivity|].
  assert (F : called_with 0 (outcome 10 two_readers) = false) by (vm_compute; reflexivity).
  assert (K : handed 0 (outcome 10 two_readers)).
  { apply (H _ s 0 R).
    - apply wonly_ok. vm_compute. reflexivity.
    - apply no_wb_ok. vm_compute. reflexivity.
    - apply asets_ok. vm_compute. reflexivity.
    - apply in_got. vm_compute. reflexivity. }
  apply handed_called in K. rewrite F in K. discriminate K.
Qed.
Print Assumptions rbll_two_readers_refuted.

(** A ring whose access word is FLOWPEER: refuted.  A blocking write returns 0
    and writes nothing. *)
Definition peer_left : list ev :=
  SetAcl FLOWPEER :: Call 0 (WriteB 11 false) :: times 5 (Step 0) ++ Call 1 Read :: times 4 (Step 1).
Theorem rbll_write_b_peer_refuted :
  ~ (forall h s, runs 10 ((Step 1, Some EPeer) :: h) s -> writes_only 0 h -> reads_only 1 h ->
       (length (wrote (before_call 1 h)) <= length (got h))%nat).
Proof.
  intros H. destruct (outcome_runs 10 peer_left) as (s & _ & R); [vm_compute; reflexivity|].
  assert (E : outcome 10 peer_left = (Step 1, Some EPeer) :: tl (outcome 10 peer_left)) by (vm_compute; reflexivity).
  rewrite E in R. pose proof (H _ s R) as K.
  assert (K' : (1 <= 0)%nat); [|lia].
  apply K; [apply wonly_ok|apply ronly_ok]; vm_compute; reflexivity.
Qed.
Print Assumptions rbll_write_b_peer_refuted.

(** Threads that only read never wake those who wait. *)
Definition rdr (p : pc) : bool :=
  match p with
  | Idle | Dead | RE _ | RE2 _ _ | RA _ | RB _ | RT _ | RX _ _ | RN _ _ | RL _ _
  | QL _ | QE _ _ | QE2 _ _ _ | QW _ | QR _ _ | QU _ => true
  | _ => false
  end.
Definition waits (t : nat) (p : pc) (s : st) : Prop :=
  pcs s t = p /\ forall u, u <> t -> rdr (pcs s u) = true.

Lemma read_ends_other : forall s t m o u, u <> t -> pcs (fst (read_ends s t m o)) u = pcs s u.
Proof.
  intros s t m o u U. destruct m; cbn [read_ends]; destruct o; cbn [fst go pcs]; apply upd_other; exact U.
Qed.
Lemma read_ends_rdr : forall s t m o, rdr (pcs (fst (read_ends s t m o)) t) = true.
Proof.
  intros s t m o. destruct m; cbn [read_ends]; destruct o; cbn [fst go pcs]; rewrite upd_same; reflexivity.
Qed.

Lemma access_rdr : forall lg s t s' o, rdr (pcs s t) = true -> access lg s t = Some (s', o) ->
  rdr (pcs s' t) = true /\ forall u, u <> t -> pcs s' u = pcs s u.
Proof.
  intros lg s t s' o R H. unfold access in H.
  destruct (pcs s t); try discriminate R; try discriminate H; cbv zeta in H;
    repeat match type of H with
    | context [if ?b then _ else _] => destruct b; try discriminate H
    end; apply (f_equal (fun z => match z with Some y => fst y | None => s' end)) in H; cbv beta iota in H; cbn [fst] in H.
  all: try (rewrite <- H; split; [cbn [go with_lock pcs]; rewrite upd_same; try destruct m; reflexivity|
       intros u U; cbn [go with_lock pcs]; apply upd_other; exact U]; fail).
  all: rewrite <- H;
    split; [apply read_ends_rdr|intros u U; apply read_ends_other; exact U].
Qed.

Lemma waits_step : forall lg t p s e s' o, (exists x, p = BW x false) \/ p = QW false ->
  waits t p s -> step lg s e = Some (s', o) ->
  (match e with Call _ (Write _) | Call _ (WriteB _ _) | Spurious _ => False | _ => True end) ->
  waits t p s' /\ (o <> None -> exists u, e = Step u /\ u <> t).
Proof.
  intros lg t p s e s' o P (W1 & W2) ST D.
  assert (PN : access lg s t = None) by (unfold access; rewrite W1; destruct P as [(x & ->)| ->]; reflexivity).
  destruct e as [u c|u|u|u|v]; cbn [step] in ST.
  - destruct (Nat.eq_dec u t) as [U|U].
    + subst u. rewrite W1 in ST. destruct P as [(x & ->)| ->]; discriminate ST.
    + destruct (pcs s u) eqn:PU; try discriminate ST. injection ST as <- <-.
      split; [|intros Q; elim Q; reflexivity]. split; cbn [go pcs]; [rewrite upd_other by congruence; exact W1|].
      intros v V. destruct (Nat.eq_dec v u) as [E|E]; [subst v; rewrite upd_same|rewrite upd_other by exact E; apply W2; exact V].
      destruct c; try (elim D; fail); reflexivity.
  - destruct (Nat.eq_dec u t) as [U|U]; [subst u; congruence|].
    destruct (access_rdr lg s u s' o (W2 u U) ST) as (A1 & A2).
    split; [|intros _; exists u; split; [reflexivity|exact U]].
    split; [rewrite A2 by congruence; exact W1|].
    intros v V. destruct (Nat.eq_dec v u) as [E|E]; [subst v; exact A1|rewrite A2 by exact E; apply W2; exact V].
  - destruct (Nat.eq_dec u t) as [U|U].
    + subst u. rewrite W1 in ST. destruct P as [(x & ->)| ->]; discriminate ST.
    + assert (PQ : pcs s u = QW true /\ s' = go s u (QR true true) /\ o = None).
      { pose proof (W2 u U) as RU. destruct (pcs s u); try discriminate ST; try discriminate RU.
        destruct tm; [|discriminate ST]. injection ST as <- <-. repeat split. }
      destruct PQ as (PQ & -> & ->). split; [|intros Q; elim Q; reflexivity].
      split; cbn [go pcs]; [rewrite upd_other by congruence; exact W1|].
      intros v V. destruct (Nat.eq_dec v u) as [E|E]; [subst v; rewrite upd_same; reflexivity|rewrite upd_other by exact E; apply W2; exact V].
  - elim D.
  - injection ST as <- <-. split; [|intros Q; elim Q; reflexivity]. split; assumption.
Qed.

Lemma waits_on : forall lg t p h' h s s1, (exists x, p = BW x false) \/ p = QW false ->
  runs lg h s -> waits t p s -> runs lg (h' ++ h) s1 -> ~ write_called h' -> ~ spurious h' ->
  (forall s2, runs lg h s2 -> s2 = s) ->
  waits t p s1 /\ forall o, ~ In (Step t, Some o) h'.
Proof.
  intros lg t p h'. induction h' as [|[e o] h' IH]; intros h s s1 P R W R1 NW NS U.
  - cbn [app] in R1. rewrite (U s1 R1). split; [exact W|]. intros o [].
  - cbn [app] in R1. destruct (last_step _ _ _ _ _ R1) as (s2 & R2 & ST).
    destruct (IH h s s2 P R W R2) as (W2 & N2).
    + intros (u & c & r & IN & C). apply NW. exists u, c, r. split; [right; exact IN|exact C].
    + intros (u & r & IN). apply NS. exists u, r. right. exact IN.
    + exact U.
    + destruct (waits_step lg t p s2 e s1 o P W2 ST) as (W3 & N3).
      * destruct e as [u c|u|u|u|v]; try exact I.
        -- destruct c; try exact I; apply NW; eexists u, _, o; (split; [left; reflexivity|exact I]).
        -- apply NS. exists u, o. left. reflexivity.
      * split; [exact W3|]. intros q [IN|IN]; [|apply (N2 q IN)].
        injection IN as -> ->. destruct (N3 ltac:(discriminate)) as (u & E & F). congruence.
Qed.

Lemma runs_det : forall lg h s, runs lg h s -> forall s2, runs lg h s2 -> s2 = s.
Proof.
  intros lg h s H. induction H as [|h s e s' o H IH ST]; intros s2 R2.
  - inversion R2. reflexivity.
  - destruct (last_step _ _ _ _ _ R2) as (s3 & R3 & ST3). rewrite (IH s3 R3) in ST3. congruence.
Qed.

(** A blocking write to a full ring never returns, whatever is read: it
    waits on the condition that writes signal (line 111). *)
Theorem rbll_blocked_write_stays : forall lg t x h s h' s',
  runs lg h s -> pcs s t = BW x false -> (forall u, u <> t -> rdr (pcs s u) = true) ->
  runs lg (h' ++ h) s' -> ~ write_called h' -> ~ spurious h' ->
  forall o, ~ In (Step t, Some o) h'.
Proof.
  intros lg t x h s h' s' R P Q R' NW NS.
  apply (waits_on lg t (BW x false) h' h s s' (or_introl (ex_intro _ x eq_refl)) R (conj P Q) R' NW NS (runs_det lg h s R)).
Qed.
Print Assumptions rbll_blocked_write_stays.

(** So this is refuted: a blocking write returns once the reader has read
    everything.  (A ring of four places; the size is a power of two.) *)
Definition writer_blocks : list ev :=
  Call 0 (Write 1) :: times 9 (Step 0) ++ Call 0 (Write 2) :: times 8 (Step 0) ++
  Call 0 (Write 3) :: times 8 (Step 0) ++ Call 0 (WriteB 4 false) :: times 4 (Step 0) ++
  Call 1 Read :: times 6 (Step 1) ++ Call 1 Read :: times 6 (Step 1) ++ Call 1 Read :: times 6 (Step 1) ++
  Call 1 Read :: times 4 (Step 1).
Theorem rbll_blocked_write_refuted :
  ~ (forall lg h s x, 2 <= lg -> runs lg h s -> writes_only 0 h -> reads_only 1 h -> ~ acl_set h ->
       pcs s 0%nat = BW x false -> hd_error h = Some (Step 1, Some EAgain) ->
       exists h' s', runs lg (h' ++ h) s' /\ ~ write_called h' /\ ~ spurious h' /\
         In (Step 0, Some (Wrote x)) h').
Proof.
  intros H. destruct (outcome_runs 2 writer_blocks) as (s & X & R); [vm_compute; reflexivity|].
  assert (P : forall u, match exec 2 [] init writer_blocks with Some (_, s) => pcs s u = match u with O => BW 4 false | S O => Idle | _ => Idle end | None => False end).
  { intros [|[|u]]; vm_compute; reflexivity. }
  rewrite X in P.
  destruct (H 2 _ s 4 ltac:(lia) R) as (h' & s' & R' & NW & NS & IN).
  - apply wonly_ok. vm_compute. reflexivity.
  - apply ronly_ok. vm_compute. reflexivity.
  - apply asets_ok. vm_compute. reflexivity.
  - apply (P 0%nat).
  - vm_compute. reflexivity.
  - apply (rbll_blocked_write_stays 2 0 4 _ s h' s' R (P 0%nat)) with (o := Wrote 4); try assumption.
    intros [|u] U; [congruence|]. rewrite (P (S u)). destruct u; reflexivity.
Qed.
Print Assumptions rbll_blocked_write_refuted.

(** A reader that waits is not told that the flow is down: refuted. *)
Definition reader_blocks : list ev :=
  Call 1 (ReadB false) :: times 7 (Step 1) ++ [SetAcl FLOWDOWN].
Theorem rbll_blocked_read_down_refuted :
  ~ (forall lg h s, 2 <= lg -> runs lg h s -> reads_only 1 h -> ~ write_called h ->
       pcs s 1%nat = QW false -> acl s = FLOWDOWN ->
       exists h' s' o, runs lg (h' ++ h) s' /\ ~ write_called h' /\ ~ spurious h' /\
         In (Step 1, Some o) h').
Proof.
  intros H. destruct (outcome_runs 10 reader_blocks) as (s & X & R); [vm_compute; reflexivity|].
  assert (P : forall u, match exec 10 [] init reader_blocks with Some (_, s) => acl s = FLOWDOWN /\ pcs s u = match u with 1%nat => QW false | _ => Idle end | None => False end).
  { intros [|[|u]]; vm_compute; split; reflexivity. }
  rewrite X in P.
  destruct (H 10 _ s ltac:(lia) R) as (h' & s' & o & R' & NW & NS & IN).
  - apply ronly_ok. vm_compute. reflexivity.
  - apply nw_ok. vm_compute. reflexivity.
  - apply (P 1%nat).
  - apply (P 0%nat).
  - destruct (waits_on 10 1 (QW false) h' _ s s' (or_intror eq_refl) R) as (_ & N1); try assumption.
    + split; [apply (P 1%nat)|]. intros [|[|u]] U; [|congruence|].
      * rewrite (proj2 (P 0%nat)). reflexivity.
      * rewrite (proj2 (P (S (S u)))). reflexivity.
    + intros s2 R2. apply (runs_det _ _ _ R _ R2).
    + apply (N1 o IN).
Qed.
Print Assumptions rbll_blocked_read_down_refuted.

(** ** Concrete cases *)

(* one writer and one reader interleave on a ring of four places, so that
   head wraps and one write finds the ring full *)
Definition a_run : list ev :=
  Call 0 (Write 1) :: times 9 (Step 0) ++ Call 1 Read :: times 3 (Step 1) ++ Call 0 (Write 2) :: times 4 (Step 0) ++
  times 3 (Step 1) ++ times 5 (Step 0) ++ Call 0 (Write 3) :: times 8 (Step 0) ++ Call 0 (WriteB 4 false) :: times 11 (Step 0) ++
  Call 1 Read :: times 4 (Step 1) ++ Call 0 (Write 5) :: times 8 (Step 0) ++ times 2 (Step 1) ++ Call 0 (Write 6) :: times 3 (Step 0).
Example rbll_run :
  exists s, runs 2 (outcome 2 a_run) s /\ writes_only 0 (outcome 2 a_run) /\ reads_only 1 (outcome 2 a_run) /\
    only_down (outcome 2 a_run) /\ wrote (outcome 2 a_run) = [1; 2; 3; 4; 5] /\ got (outcome 2 a_run) = [1; 2] /\
    hd_error (outcome 2 a_run) = Some (Step 0, Some EAgain).
Proof.
  destruct (outcome_runs 2 a_run) as (s & _ & R); [vm_compute; reflexivity|]. exists s. split; [exact R|].
  split; [apply wonly_ok; vm_compute; reflexivity|]. split; [apply ronly_ok; vm_compute; reflexivity|].
  split; [|vm_compute; repeat split].
  intros v o IN. exfalso. apply (asets_ok (outcome 2 a_run)); [vm_compute; reflexivity|]. exists v, o. exact IN.
Qed.
(* the reader finds nothing after it read everything *)
Example rbll_emptied :
  exists s, runs 10 (outcome 10 (Call 0 (Write 1) :: times 9 (Step 0) ++ Call 1 Read :: times 6 (Step 1) ++ Call 1 Read :: times 4 (Step 1))) s /\
    hd_error (outcome 10 (Call 0 (Write 1) :: times 9 (Step 0) ++ Call 1 Read :: times 6 (Step 1) ++ Call 1 Read :: times 4 (Step 1))) = Some (Step 1, Some EAgain).
Proof.
  destruct (outcome_runs 10 (Call 0 (Write 1) :: times 9 (Step 0) ++ Call 1 Read :: times 6 (Step 1) ++ Call 1 Read :: times 4 (Step 1))) as (s & _ & R);
    [vm_compute; reflexivity|]. exists s. split; [exact R|vm_compute; reflexivity].
Qed.
