(** C64: what the two sides of the congestion avoidance tell each other. *)
From Coq Require Import List NArith ZArith Bool Lia ZifyN ZifyBool.
From Verif Require Import MbEcnModel MbEcnSpec MbEcnProofs.
Import ListNotations.
Open Scope N_scope.

(** The levels reported to the remote side during a history, in order: for each
    packet received for which mb_ecn_ctx_update_rcv returns true (fa.c then sends
    a flow update message). *)
Definition report (c : ctx) (e : ev) : list N :=
  match e with
  | Rcv ecn => match update_rcv c ecn with (_, true, Some l) => [l] | _ => [] end
  | _ => []
  end.
Fixpoint reported (c : ctx) (es : list ev) : option (ctx * list N) :=
  match es with
  | [] => Some (c, [])
  | e :: t =>
      bind (step c e) (fun '(c', _) =>
      bind (reported c' t) (fun '(c'', rs) => Some (c'', report c e ++ rs)))
  end.

Definition is_rcv (e : ev) : bool := match e with Rcv _ => true | _ => false end.
Definition mark (e : ev) : N := match e with Rcv m => m | _ => 0 end.

Lemma reported_app : forall a c b, reported c (a ++ b) =
  bind (reported c a) (fun '(c1, r1) => bind (reported c1 b) (fun '(c2, r2) => Some (c2, r1 ++ r2))).
Proof.
  induction a as [|e a IH]; intros c b; cbn [app reported bind].
  - destruct (reported c b) as [[c2 r2]|]; reflexivity.
  - destruct (step c e) as [[c1 o]|]; cbn [bind]; [|reflexivity]. rewrite IH.
    destruct (reported c1 a) as [[c2 r2]|]; cbn [bind]; [|reflexivity].
    destruct (reported c2 b) as [[c3 r3]|]; cbn [bind]; [|reflexivity]. now rewrite app_assoc.
Qed.

Lemma snd_rx c now len c' w : update_snd c now len = Some (c', w) ->
  rx_ece c' = rx_ece c /\ rx_ctr c' = rx_ctr c.
Proof.
  unfold update_snd, bind.
  destruct (shr now (tx_mul c)); [|discriminate].
  set (ece := if CA_WND <? w64 (tx_ctr c + 1) then 0 else tx_ece c). clearbody ece.
  intros E.
  repeat match type of E with
  | context [match ?x with _ => _ end] =>
      lazymatch x with
      | context [match _ with _ => _ end] => fail
      | _ => destruct x eqn:?; try discriminate E
      end
  end; injection E as <- <-; cbn; auto.
Qed.

(** What one event does to the receiving side. *)
Lemma rx_step : forall m c e c' o, lvl m c -> marks_ok m e -> step c e = Some (c', o) ->
  lvl m c' /\
  match e with
  | Rcv 0 => (rx_ece c = 0 /\ rx_ece c' = 0 /\ report c e = []) \/
             (rx_ece c <> 0 /\ rx_ece c' = rx_ece c / 4 /\
              report c e = if rx_ece c' =? 0 then [0] else [])
  | Rcv _ => rx_ece c' <> 0 /\
      ((rx_ece c = 0 /\ rx_ctr c' = 0 /\ report c e = [mark e]) \/
       (rx_ece c <> 0 /\ rx_ctr c' = w64 (rx_ctr c + 1) /\
        report c e = if rx_ctr c mod 8 =? 1 then [rx_ece c'] else []))
  | _ => rx_ece c' = rx_ece c /\ rx_ctr c' = rx_ctr c /\ report c e = []
  end.
Proof.
  intros m c e c' o L M S. split; [apply (lvl_step _ _ _ _ _ L M S)|].
  destruct e as [now len|ecn|ece]; cbn [step marks_ok report mark] in *.
  - destruct (update_snd c now len) as [[c1 w]|] eqn:U; cbn [bind] in S; [|discriminate].
    injection S as <- <-. destruct (snd_rx _ _ _ _ _ U). auto.
  - unfold update_rcv in *. destruct (N.eqb_spec (N.lor (rx_ece c) ecn) 0) as [Z|Z].
    + apply N.lor_eq_0_iff in Z as (Z1 & Z2). subst ecn.
      assert (c' = c) as -> by congruence. left. rewrite Z1. auto.
    + destruct (N.eqb_spec ecn 0) as [->|Ne].
      * right. injection S as <- <-. cbn [rx_ece]. rewrite N.lor_0_r in Z. split; [exact Z|].
        split; [reflexivity|]. destruct (N.eqb_spec (rx_ece c / 4) 0) as [->|]; reflexivity.
      * assert (G : rx_ece c' <> 0 /\
          ((rx_ece c = 0 /\ rx_ctr c' = 0 /\
            match (if rx_ece c =? 0 then (mk_ctx ecn 0 (tx_ece c) (tx_ctr c) (tx_wbc c) (tx_wpc c) (tx_wbl c) (tx_cav c)
                          (tx_mul c) (tx_inc c) (tx_slot c), true, Some ecn)
                   else (mk_ctx (w16 (w16 (rx_ece c - rx_ece c / 2 ^ CA_SHFT) + ecn)) (w64 (rx_ctr c + 1)) (tx_ece c) (tx_ctr c) (tx_wbc c) (tx_wpc c) (tx_wbl c) (tx_cav c)
                          (tx_mul c) (tx_inc c) (tx_slot c), rx_ctr c mod CA_UPD =? 1,
                          Some (w16 (w16 (rx_ece c - rx_ece c / 2 ^ CA_SHFT) + ecn))))
            with (_, true, Some l) => [l] | _ => [] end = [ecn]) \/
           (rx_ece c <> 0 /\ rx_ctr c' = w64 (rx_ctr c + 1) /\
            match (if rx_ece c =? 0 then (mk_ctx ecn 0 (tx_ece c) (tx_ctr c) (tx_wbc c) (tx_wpc c) (tx_wbl c) (tx_cav c)
                          (tx_mul c) (tx_inc c) (tx_slot c), true, Some ecn)
                   else (mk_ctx (w16 (w16 (rx_ece c - rx_ece c / 2 ^ CA_SHFT) + ecn)) (w64 (rx_ctr c + 1)) (tx_ece c) (tx_ctr c) (tx_wbc c) (tx_wpc c) (tx_wbl c) (tx_cav c)
                          (tx_mul c) (tx_inc c) (tx_slot c), rx_ctr c mod CA_UPD =? 1,
                          Some (w16 (w16 (rx_ece c - rx_ece c / 2 ^ CA_SHFT) + ecn))))
            with (_, true, Some l) => [l] | _ => [] end = if rx_ctr c mod 8 =? 1 then [rx_ece c'] else []))).
        { destruct (N.eqb_spec (rx_ece c) 0) as [Z0|Z0].
          - injection S as <- <-. cbn [rx_ece rx_ctr]. split; [exact Ne|]. left. auto.
          - match type of S with Some (?x, _) = _ => assert (c' = x) as -> by congruence end. cbn [rx_ece rx_ctr].
            destruct (rcv_level (rx_ece c) ecn (proj1 L) M) as [B _]. rewrite B.
            split; [lia|]. right. split; [exact Z0|]. split; [reflexivity|].
            change CA_UPD with 8. now destruct (rx_ctr c mod 8 =? 1). }
        destruct ecn as [|p]; [congruence|]. exact G.
  - injection S as <- <-. auto.
Qed.

Lemma lvl_create : forall m now, lvl m (ctx_create now).
Proof. intros m now. unfold lvl, ctx_create. cbn [rx_ece tx_ece]. lia. Qed.

Lemma w64_mod8 : forall a k, (w64 a + k) mod 8 = (a + k) mod 8.
Proof.
  intros a k. unfold w64. change two64 with (8 * 2305843009213693952).
  rewrite <- N.add_mod_idemp_l by lia. rewrite N.mod_mul_r by lia.
  rewrite (N.mul_comm 8), N.mod_add, N.mod_mod by lia. now rewrite N.add_mod_idemp_l by lia.
Qed.

Lemma last_app_one : forall (l : list N) x d, last (l ++ [x]) d = x.
Proof. intros. apply last_last. Qed.

(** The remote side believes in congestion exactly while there is a level. *)
Lemma informed : forall m es c c' rs l0, lvl m c -> Forall (marks_ok m) es ->
  reported c es = Some (c', rs) -> (last l0 0 = 0 <-> rx_ece c = 0) ->
  lvl m c' /\ (last (l0 ++ rs) 0 = 0 <-> rx_ece c' = 0).
Proof.
  induction es as [|e es IH]; intros c c' rs l0 L F R B; cbn [reported] in R.
  - injection R as <- <-. rewrite app_nil_r. auto.
  - destruct (step c e) as [[c1 o]|] eqn:S; cbn [bind] in R; [|discriminate].
    destruct (reported c1 es) as [[c2 r2]|] eqn:R2; cbn [bind] in R; [|discriminate].
    injection R as <- <-. pose proof (Forall_inv F) as F1. pose proof (Forall_inv_tail F) as F2.
    destruct (rx_step m c e c1 o L F1 S) as (L1 & X). rewrite app_assoc.
    apply (IH c1 c2 r2 _ L1 F2 R2).
    destruct e as [now len|[|p]|ece].
    + destruct X as (X1 & _ & ->). rewrite app_nil_r, X1. exact B.
    + destruct X as [(X1 & X2 & ->)|(X1 & X2 & ->)].
      * rewrite app_nil_r, X2. tauto.
      * destruct (N.eqb_spec (rx_ece c1) 0) as [Z|Z].
        -- rewrite last_app_one. tauto.
        -- rewrite app_nil_r. tauto.
    + destruct X as (X0 & [(X1 & _ & ->)|(X1 & _ & ->)]).
      * rewrite last_app_one. cbn. split; [discriminate | contradiction].
      * destruct (rx_ctr c mod 8 =? 1).
        -- rewrite last_app_one. tauto.
        -- rewrite app_nil_r. tauto.
    + destruct X as (X1 & _ & ->). rewrite app_nil_r, X1. exact B.
Qed.

(** The last report, if a marked packet was the last to arrive, says that there is
    congestion. *)
Theorem mbecn_congestion_known : forall m now es mk rest c rs,
  Forall (marks_ok m) (es ++ Rcv mk :: rest) -> mk <> 0 ->
  Forall (fun e => is_rcv e = false) rest ->
  reported (ctx_create now) (es ++ Rcv mk :: rest) = Some (c, rs) ->
  last rs 0 <> 0.
Proof.
  intros m now es mk rest c rs F Hm Hr R.
  rewrite reported_app in R.
  destruct (reported (ctx_create now) es) as [[c1 r1]|] eqn:R1; cbn [bind] in R; [|discriminate].
  destruct (reported c1 (Rcv mk :: rest)) as [[c2 r2]|] eqn:R2; cbn [bind] in R; [|discriminate].
  injection R as <- <-. apply Forall_app in F as (F1 & F2).
  destruct (informed m es _ _ r1 [] (lvl_create m now) F1 R1 ltac:(cbn; tauto)) as (L1 & B1).
  cbn [app] in B1. destruct (informed m _ c1 c2 r2 r1 L1 F2 R2 B1) as (L2 & B2).
  rewrite B2. clear B2 B1 R1 F1.
  cbn [reported] in R2. destruct (step c1 (Rcv mk)) as [[c3 o]|] eqn:S; cbn [bind] in R2; [|discriminate].
  destruct (rx_step m c1 _ c3 o L1 (Forall_inv F2) S) as (L3 & X).
  destruct mk as [|p]; [congruence|]. destruct X as (X & _).
  destruct (reported c3 rest) as [[c4 r4]|] eqn:R4; cbn [bind] in R2; [|discriminate].
  injection R2 as <- _. apply Forall_inv_tail in F2. clear S L2 L1.
  revert c3 r4 L3 X R4. induction rest as [|e rest IH]; intros c3 r4 L3 X R4; cbn [reported] in R4.
  - injection R4 as <- _. exact X.
  - destruct (step c3 e) as [[c5 o5]|] eqn:S; cbn [bind] in R4; [|discriminate].
    destruct (reported c5 rest) as [[c6 r6]|] eqn:R6; cbn [bind] in R4; [|discriminate].
    injection R4 as <- _. pose proof (Forall_inv Hr) as H1.
    destruct (rx_step m c3 e c5 o5 L3 (Forall_inv F2) S) as (L5 & Y).
    refine (IH (Forall_inv_tail F2) (Forall_inv_tail Hr) c5 r6 L5 _ R6).
    destruct e; cbn in H1; try discriminate; destruct Y as (Y & _); now rewrite Y.
Qed.
Print Assumptions mbecn_congestion_known.

Fixpoint arrivals (es : list ev) : nat :=
  match es with [] => 0 | e :: t => if is_rcv e then S (arrivals t) else arrivals t end.

(** Once seven packets in a row arrived unmarked, the last report (if there was
    any) says that the congestion is over. *)
Theorem mbecn_congestion_end_known : forall m now es rest c rs,
  Forall (marks_ok m) (es ++ rest) ->
  Forall (fun e => mark e = 0) rest -> (7 <= arrivals rest)%nat ->
  reported (ctx_create now) (es ++ rest) = Some (c, rs) ->
  last rs 0 = 0.
Proof.
  intros m now es rest c rs F Hr Ha R.
  rewrite reported_app in R.
  destruct (reported (ctx_create now) es) as [[c1 r1]|] eqn:R1; cbn [bind] in R; [|discriminate].
  destruct (reported c1 rest) as [[c2 r2]|] eqn:R2; cbn [bind] in R; [|discriminate].
  injection R as <- <-. apply Forall_app in F as (F1 & F2).
  destruct (informed m es _ _ r1 [] (lvl_create m now) F1 R1 ltac:(cbn; tauto)) as (L1 & B1).
  cbn [app] in B1. destruct (informed m _ c1 c2 r2 r1 L1 F2 R2 B1) as (L2 & B2). apply B2.
  clear B1 B2 R1 F1 L2 r1.
  assert (G : forall k c1 r2, lvl m c1 -> rx_ece c1 < 4 ^ N.of_nat k -> (k <= arrivals rest)%nat ->
    reported c1 rest = Some (c2, r2) -> rx_ece c2 = 0).
  { clear c1 r2 R2 L1 Ha. induction rest as [|e rest IH]; intros k c1 r2 L1 B Ha R2; cbn [reported] in R2.
    - injection R2 as <- _. cbn in Ha. assert (k = 0%nat) as -> by lia. cbn in B. lia.
    - destruct (step c1 e) as [[c3 o]|] eqn:St; cbn [bind] in R2; [|discriminate].
      destruct (reported c3 rest) as [[c4 r4]|] eqn:R4; cbn [bind] in R2; [|discriminate].
      injection R2 as <- _.
      destruct (rx_step m c1 e c3 o L1 (Forall_inv F2) St) as (L3 & X).
      pose proof (Forall_inv Hr) as Hm. apply Forall_inv_tail in Hr, F2.
      destruct e as [now' len|[|p]|ece]; cbn in Hm; try discriminate; cbn [arrivals is_rcv] in Ha.
      + apply (IH F2 Hr k c3 r4); auto. destruct X as (-> & _). exact B.
      + destruct k as [|k].
        { cbn in B. apply (IH F2 Hr 0%nat c3 r4); auto; [|lia].
          destruct X as [(_ & -> & _)|(X & _)]; [cbn; lia | lia]. }
        apply (IH F2 Hr k c3 r4); auto; [|lia].
        destruct X as [(_ & -> & _)|(_ & -> & _)].
        * apply N.neq_0_lt_0. apply N.pow_nonzero. lia.
        * apply N.div_lt_upper_bound; [lia|].
          replace (N.of_nat (S k)) with (N.succ (N.of_nat k)) in B by lia. rewrite N.pow_succ_r' in B. exact B.
      + apply (IH F2 Hr k c3 r4); auto. destruct X as (-> & _). exact B. }
  apply (G 7%nat c1 r2); auto. destruct L1 as (L1 & _). change (4 ^ N.of_nat 7) with 16384. lia.
Qed.
Print Assumptions mbecn_congestion_end_known.

(** While congestion lasts, there is a report at least every eight packets. *)
Theorem mbecn_reports_every_8 : forall m now es rest c1 r1 c2 r2,
  Forall (marks_ok m) (es ++ rest) ->
  reported (ctx_create now) es = Some (c1, r1) -> reported c1 rest = Some (c2, r2) ->
  Forall (fun e => is_rcv e = true -> mark e <> 0) rest -> (8 <= arrivals rest)%nat ->
  r2 <> [].
Proof.
  intros m now es rest c1 r1 c2 r2 F R1 R2 Hr Ha. apply Forall_app in F as (F1 & F2).
  destruct (informed m es _ _ r1 [] (lvl_create m now) F1 R1 ltac:(cbn; tauto)) as (L1 & _).
  clear R1 F1.
  (* k: arrivals until the counter is 1 modulo 8 *)
  assert (G : forall k c1 r2, lvl m c1 -> (rx_ece c1 = 0 \/ (rx_ctr c1 + N.of_nat k) mod 8 = 1) ->
    (S k <= arrivals rest)%nat -> reported c1 rest = Some (c2, r2) -> r2 <> []).
  { clear c1 r2 R2 L1 Ha. induction rest as [|e rest IH]; intros k c1 r2 L1 B Ha R2; cbn [reported] in R2.
    - cbn in Ha. lia.
    - destruct (step c1 e) as [[c3 o]|] eqn:St; cbn [bind] in R2; [|discriminate].
      destruct (reported c3 rest) as [[c4 r4]|] eqn:R4; cbn [bind] in R2; [|discriminate].
      injection R2 as <- <-.
      destruct (rx_step m c1 e c3 o L1 (Forall_inv F2) St) as (L3 & X).
      pose proof (Forall_inv Hr) as Hm. apply Forall_inv_tail in Hr, F2.
      destruct e as [now' len|[|p]|ece]; cbn [arrivals is_rcv mark] in *.
      + destruct X as (X1 & X2 & ->). cbn [app]. apply (IH F2 Hr k c3 r4); auto. now rewrite X1, X2.
      + exfalso. now apply Hm.
      + destruct X as (X0 & [(X1 & X2 & ->)|(X1 & X2 & ->)]); [discriminate|].
        destruct B as [B|B]; [contradiction|].
        destruct (N.eqb_spec (rx_ctr c1 mod 8) 1) as [Z|Z]; [discriminate|]. cbn [app].
        destruct k as [|k]; [rewrite N.add_0_r in B; congruence|].
        apply (IH F2 Hr k c3 r4); auto; [|lia]. right. rewrite X2. unfold w64.
        fold (w64 (rx_ctr c1 + 1)). rewrite w64_mod8. rewrite <- B. f_equal. lia.
      + destruct X as (X1 & X2 & ->). cbn [app]. apply (IH F2 Hr k c3 r4); auto. now rewrite X1, X2. }
  set (k := N.to_nat ((9 - rx_ctr c1 mod 8) mod 8)).
  apply (G k c1 r2); auto.
  - right. unfold k. rewrite N2Nat.id.
    pose proof (N.mod_lt (rx_ctr c1) 8 ltac:(lia)) as M.
    rewrite N.add_mod_idemp_r by lia. rewrite <- N.add_mod_idemp_l by lia.
    replace (rx_ctr c1 mod 8 + (9 - rx_ctr c1 mod 8)) with 9 by lia. reflexivity.
  - pose proof (N.mod_lt (9 - rx_ctr c1 mod 8) 8 ltac:(lia)). unfold k. lia.
Qed.
Print Assumptions mbecn_reports_every_8.

Example mbecn_reports_nonvacuous :
  option_map snd (reported (ctx_create 0)
    ([Rcv 0; Rcv 5] ++ repeat (Rcv 200) 9 ++ [Snd 7 100; Ece 3] ++ repeat (Rcv 0) 7))
  = Some [5; 399; 0].
Proof. vm_compute. reflexivity. Qed.

(** The sending side: a report ends the slow start for good, so the window limit
    is no longer doubled at the end of a slot. *)
Theorem mbecn_slow_start_ends : forall now es ece rest c,
  run (ctx_create now) (es ++ Ece ece :: rest) = Some c -> tx_cav c = true.
Proof.
  assert (K : forall es c c', run c es = Some c' -> tx_cav c = true -> tx_cav c' = true).
  { induction es as [|e es IH]; intros c c' R H; cbn [run] in R; [now injection R as <-|].
    destruct (step c e) as [[c1 o]|] eqn:St; cbn [bind] in R; [|discriminate]. apply (IH c1 c' R).
    destruct e as [t len|ecn|ece]; cbn [step] in St.
    - destruct (update_snd c t len) as [[c2 w]|] eqn:U; cbn [bind] in St; [|discriminate].
      injection St as <- _. destruct (snd_fields _ _ _ _ _ U) as (_ & _ & ->). exact H.
    - unfold update_rcv in St. destruct (N.lor (rx_ece c) ecn =? 0); [now injection St as <- _|].
      destruct (ecn =? 0); [now injection St as <- _|]. destruct (rx_ece c =? 0); now injection St as <- _.
    - now injection St as <- _. }
  intros now es ece rest c R.
  assert (A : forall a c0 b, run c0 (a ++ b) = bind (run c0 a) (fun c1 => run c1 b)).
  { induction a as [|e a IH]; intros c0 b; [reflexivity|]. cbn [app run].
    destruct (step c0 e) as [[c1 o]|]; cbn [bind]; auto. }
  rewrite A in R. destruct (run (ctx_create now) es) as [c1|]; cbn [bind run step] in R; [|discriminate].
  now apply K in R.
Qed.
Print Assumptions mbecn_slow_start_ends.

(** A reported level is forgotten after 32 packets: from the 33rd packet after the
    last report on, the window no longer shrinks. *)
Fixpoint sent (es : list ev) : nat :=
  match es with [] => 0 | Snd _ _ :: t => S (sent t) | _ :: t => sent t end.

Theorem mbecn_report_expires : forall c0 rest c,
  Forall (fun e => match e with Ece _ => False | _ => True end) rest ->
  tx_ctr c0 + N.of_nat (sent rest) < 2 ^ 64 ->
  run c0 rest = Some c -> (33 <= sent rest)%nat -> tx_ece c = 0.
Proof.
  intros c0 rest c F B R Hs.
  assert (Gen : forall rest c0, Forall (fun e => match e with Ece _ => False | _ => True end) rest ->
    tx_ctr c0 + N.of_nat (sent rest) < 2 ^ 64 -> run c0 rest = Some c ->
    (tx_ece c0 = 0 -> tx_ece c = 0) /\
    (tx_ece c = 0 \/ sent rest = 0%nat \/ (tx_ctr c = tx_ctr c0 + N.of_nat (sent rest) /\ tx_ctr c <= 32))).
  { clear. induction rest as [|e rest IH]; intros c0 F B R; cbn [run] in R.
    - injection R as <-. auto.
    - destruct (step c0 e) as [[c1 o]|] eqn:St; cbn [bind] in R; [|discriminate].
      pose proof (Forall_inv F) as F1. apply Forall_inv_tail in F.
      destruct e as [t len|ecn|ece]; cbn [step sent] in *; [| |contradiction].
      + destruct (update_snd c0 t len) as [[c2 w]|] eqn:U; cbn [bind] in St; [|discriminate].
        injection St as <- _.
        assert (X : tx_ctr c2 = tx_ctr c0 + 1 /\ tx_ece c2 = if 32 <? tx_ctr c0 + 1 then 0 else tx_ece c0).
        { assert (W : w64 (tx_ctr c0 + 1) = tx_ctr c0 + 1) by (apply N.mod_small; unfold two64; lia).
          unfold update_snd, bind in U. rewrite W in U. change CA_WND with 32 in U.
          destruct (shr t (tx_mul c0)); [|discriminate].
          set (ece := if 32 <? tx_ctr c0 + 1 then 0 else tx_ece c0) in *. clearbody ece.
          repeat match type of U with
          | context [match ?x with _ => _ end] =>
              lazymatch x with
              | context [match _ with _ => _ end] => fail
              | _ => destruct x eqn:?; try discriminate U
              end
          end; injection U as <- _; cbn; auto. }
        destruct X as (X1 & X2). destruct (IH c2 F) as (I1 & I2); [lia | exact R|].
        split.
        * intros H0. apply I1. rewrite X2, H0. now destruct (32 <? tx_ctr c0 + 1).
        * destruct (N.ltb_spec 32 (tx_ctr c0 + 1)) as [G|G].
          -- left. apply I1. exact X2.
          -- destruct I2 as [I2|[I2|(I2 & I3)]]; [now left| |right; right; lia].
             rewrite I2 in *. destruct rest as [|e' rest'].
             ++ cbn [run] in R. injection R as <-. right. right. lia.
             ++ (* no packet sent in the rest: the fields stay *)
                right. right. assert (Q : tx_ctr c = tx_ctr c2).
                { clear - I2 R F. revert c2 R. induction (e' :: rest') as [|e l IHl]; intros c2 R; cbn [run] in R.
                  - now injection R as <-.
                  - destruct (step c2 e) as [[c1 o]|] eqn:St; cbn [bind] in R; [|discriminate].
                    pose proof (Forall_inv F) as F1. apply Forall_inv_tail in F.
                    destruct e as [t len|ecn|ece]; cbn [step sent] in *; [discriminate| |contradiction].
                    rewrite (IHl F I2 c1 R). unfold update_rcv in St.
                    destruct (N.lor (rx_ece c2) ecn =? 0); [now injection St as <- _|].
                    destruct (ecn =? 0); [now injection St as <- _|]. destruct (rx_ece c2 =? 0); now injection St as <- _. }
                lia.
      + assert (X : tx_ctr c1 = tx_ctr c0 /\ tx_ece c1 = tx_ece c0).
        { unfold update_rcv in St.
          destruct (N.lor (rx_ece c0) ecn =? 0); [now injection St as <- _|].
          destruct (ecn =? 0); [now injection St as <- _|]. destruct (rx_ece c0 =? 0); now injection St as <- _. }
        destruct X as (X1 & X2). rewrite <- X1, <- X2. apply IH; auto. now rewrite X1. }
  destruct (Gen rest c0 F B R) as (_ & [G|[G|G]]); auto; lia.
Qed.
Print Assumptions mbecn_report_expires.

Example mbecn_expires_nonvacuous :
  option_map tx_ece (run (ctx_create 0) (Ece 500 :: burst 32 (2 ^ 30) 30000 1000)) = Some 500 /\
  option_map tx_ece (run (ctx_create 0) (Ece 500 :: burst 33 (2 ^ 30) 30000 1000)) = Some 0.
Proof. vm_compute. auto. Qed.
