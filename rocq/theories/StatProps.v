(** C105: the files of the RIB. *)
From Coq Require Import List Bool NArith ZArith String Lia.
From Coq Require Import ZifyBool ZifyNat ZifyN.
From Verif Require Import RibModel RibSpec RibProps StatModel StatSpec.
Import ListNotations.
Local Open Scope N_scope.

(** * Numbers *)
Lemma number_app a b : number (a ++ [b]) = number a * 10 + (b - 48).
Proof. unfold number. now rewrite fold_left_app. Qed.
Lemma number_one b : number [b] = b - 48.
Proof. unfold number. cbn [fold_left]. lia. Qed.
Lemma div10 n p : n < 10 * p -> n / 10 < p.
Proof. intros H. apply N.div_lt_upper_bound; lia. Qed.
Lemma pow10S f : 10 ^ N.of_nat (S f) = 10 * 10 ^ N.of_nat f.
Proof. rewrite Nat2N.inj_succ. apply N.pow_succ_r'. Qed.
Lemma digits_number f n : n < 10 ^ N.of_nat (S f) -> number (digits f n) = n.
Proof.
  revert n; induction f as [|f IH]; intros n H.
  - cbn [digits]. rewrite number_one. change (10 ^ N.of_nat 1) with 10 in H. rewrite N.mod_small by lia. lia.
  - cbn [digits]. destruct (N.ltb_spec n 10) as [L|L]; [rewrite number_one; lia|].
    rewrite number_app, IH by (apply div10; now rewrite pow10S in H).
    pose proof (N.div_mod n 10 ltac:(lia)) as D. clear - D. lia.
Qed.
Lemma digits_digit f n : Forall digit (digits f n).
Proof.
  revert n; induction f as [|f IH]; intros n; cbn [digits].
  - pose proof (N.mod_lt n 10 ltac:(lia)). constructor; [unfold digit; lia|constructor].
  - destruct (N.ltb_spec n 10).
    + constructor; [unfold digit; lia|constructor].
    + apply Forall_app. split; [apply IH|]. pose proof (N.mod_lt n 10 ltac:(lia)).
      constructor; [unfold digit; lia|constructor].
Qed.
Lemma digits_ne f n : digits f n <> [].
Proof. destruct f; cbn [digits]; [discriminate|]. destruct (n <? 10); [discriminate|]. now destruct (digits f (n / 10)). Qed.
Lemma hd_app {A} (d : A) a b : a <> [] -> hd d (a ++ b) = hd d a.
Proof. destruct a; [intros H; now elim H|reflexivity]. Qed.
Lemma digits_lead f n : n < 10 ^ N.of_nat (S f) -> n <> 0 -> hd 48 (digits f n) <> 48.
Proof.
  revert n; induction f as [|f IH]; intros n H Z.
  - cbn [digits hd]. change (10 ^ N.of_nat 1) with 10 in H. rewrite N.mod_small by lia. lia.
  - cbn [digits]. destruct (N.ltb_spec n 10) as [L|L]; [cbn [hd]; lia|].
    rewrite hd_app by apply digits_ne. apply IH; [apply div10; now rewrite pow10S in H|].
    intros E. apply N.div_small_iff in E; lia.
Qed.
Lemma digits_len f n k : n < 10 ^ N.of_nat (S k) -> (List.length (digits f n) <= S k)%nat.
Proof.
  revert n k; induction f as [|f IH]; intros n k H; cbn [digits].
  - cbn. lia.
  - destruct (N.ltb_spec n 10) as [L|L]; [cbn; lia|].
    rewrite app_length. cbn [List.length]. destruct k as [|k].
    + change (10 ^ N.of_nat 1) with 10 in H. lia.
    + specialize (IH (n / 10) k). assert (n / 10 < 10 ^ N.of_nat (S k)) by (apply div10; now rewrite pow10S in H).
      specialize (IH H0). clear - IH. lia.
Qed.
Lemma digits_len20 f n : (List.length (digits f n) <= S f)%nat.
Proof.
  revert n; induction f as [|f IH]; intros n; cbn [digits]; [cbn; lia|].
  destruct (n <? 10); [cbn; lia|]. rewrite app_length. specialize (IH (n / 10)). cbn [List.length]. lia.
Qed.
(** The other way: a number with so many digits is that large. *)
Lemma digits_min f n k : 10 ^ N.of_nat k <= n -> (k <= f)%nat -> (S k <= List.length (digits f n))%nat.
Proof.
  revert n k; induction f as [|f IH]; intros n k H K; cbn [digits].
  - cbn. lia.
  - destruct k as [|k].
    + destruct (n <? 10); [cbn; lia|]. rewrite app_length. cbn [List.length]. lia.
    + rewrite pow10S in H. assert (P : 1 <= 10 ^ N.of_nat k) by (pose proof (N.pow_nonzero 10 (N.of_nat k)); lia).
      destruct (N.ltb_spec n 10) as [L|L]; [lia|].
      rewrite app_length. cbn [List.length]. specialize (IH (n / 10) k).
      assert (Q : 10 ^ N.of_nat k <= n / 10) by (apply N.div_le_lower_bound; lia).
      specialize (IH Q ltac:(lia)). clear - IH. lia.
Qed.
Lemma word20 n : word n -> n < 10 ^ N.of_nat 20.
Proof. unfold word. intros H. assert (E : 2 ^ 64 <= 10 ^ N.of_nat 20) by (vm_compute; discriminate). lia. Qed.
Lemma dec_shows n : word n -> shows (dec n) n.
Proof.
  intros W. apply word20 in W. unfold dec. split; [now apply digits_number|]. split; [apply digits_digit|].
  destruct (N.eq_dec n 0) as [->|Z]; [left; reflexivity|]. right. split; [apply digits_ne|now apply digits_lead].
Qed.
Lemma dec_len n : (List.length (dec n) <= 20)%nat.
Proof. apply digits_len20. Qed.
Lemma dec_number n : word n -> number (dec n) = n.
Proof. intros W. apply (dec_shows n W). Qed.
Lemma dec_inj a b : word a -> word b -> dec a = dec b -> a = b.
Proof. intros A B E. rewrite <- (dec_number a A), <- (dec_number b B). now rewrite E. Qed.
Opaque dec.

(** atoi reads what is listed *)
Lemma value_app a s : Forall digit s -> value (Z.of_N a) s = Z.of_N (fold_left (fun a c => a * 10 + (c - 48)) s a).
Proof.
  revert a; induction s as [|c s IH]; intros a F; [reflexivity|].
  inversion F as [|? ? D F']; subst. cbn [value fold_left]. unfold digit in D.
  assert (T : ((48 <=? c) && (c <=? 57)) = true) by (apply andb_true_intro; split; apply N.leb_le; lia).
  rewrite T. rewrite <- (IH (a * 10 + (c - 48)) F'). f_equal. lia.
Qed.
Lemma atoi_shows s n : shows s n -> n < 2 ^ 31 -> atoi s = Z.of_N n.
Proof.
  intros (V & F & L) B. assert (Ne : s <> []) by (destruct L as [->|[L _]]; [discriminate|exact L]).
  destruct s as [|c s]; [now elim Ne|].
  pose proof F as F0. inversion F0 as [|? ? D _]; subst.
  assert (S0 : skip (c :: s) = c :: s).
  { cbn [skip]. unfold isspace. unfold digit in D.
    destruct (N.eqb_spec c 32); [lia|]. destruct (N.leb_spec 9 c), (N.leb_spec c 13); try lia; reflexivity. }
  assert (E : atoi (c :: s) = to_int (to_long (value 0 (c :: s)))).
  { unfold atoi. rewrite S0. f_equal. f_equal. unfold digit in D.
    destruct c as [|q]; [lia|]. clear - D.
    do 6 (destruct q as [q|q|]; try reflexivity; try (cbn in D; lia)). }
  rewrite E. change 0%Z with (Z.of_N 0). rewrite value_app by exact F. fold (number (c :: s)).
  set (m := number (c :: s)) in *. clearbody m. clear - B.
  unfold to_long, to_int. change (2 ^ 63)%Z with 9223372036854775808%Z. change (2 ^ 31) with 2147483648 in B.
  change (2 ^ 31)%Z with 2147483648%Z. change (2 ^ 32)%Z with 4294967296%Z.
  rewrite Z.min_r by lia. rewrite Z.max_r by lia. rewrite Z.mod_small by lia. lia.
Qed.
Lemma atoi_dec n : n < 2 ^ 31 -> atoi (dec n) = Z.of_N n.
Proof.
  intros B. apply atoi_shows; [|exact B]. apply dec_shows. unfold word.
  assert (2 ^ 31 < 2 ^ 64) by reflexivity. lia.
Qed.

(** * Rows and tables *)
Lemma line_cells l v : line l 20 v = cells l v.
Proof. unfold line, cells, pad. now rewrite <- app_assoc. Qed.
Lemma line_len l w v : List.length (line l w v) = (List.length (s2l l) + Nat.max w (List.length v) + 1)%nat.
Proof. unfold line, pad. rewrite !app_length, repeat_length. cbn [List.length]. lia. Qed.
Lemma line_dec l n : List.length (line l 20 (dec n)) = (List.length (s2l l) + 21)%nat.
Proof. rewrite line_len. pose proof (dec_len n). lia. Qed.
Lemma line_row l n : word n -> row l n (line l 20 (dec n)).
Proof. intros W. exists (dec n). split; [now apply dec_shows|apply line_cells]. Qed.
Lemma table_last l n t : row l n t -> table [(l, n)] t.
Proof. intros R. rewrite <- (app_nil_r t). apply TRow; [exact R|constructor]. Qed.

Ltac rows := repeat (apply TRow; [apply line_row; assumption|]); try (apply table_last, line_row; assumption).
Ltac words H := unfold cube_ok, fa_ok, mb_ok, cube_rows, fa_rows, mb_rows in H;
  repeat match goal with K : Forall _ (_ :: _) |- _ => let a := fresh in inversion K as [|? ? a ?]; clear K; subst; cbn [snd] in a end.

Lemma cube_table i c : cube_ok c ->
  exists t, dt_block i c = s2l "Qos cube " ++ pad 3 (dec (N.of_nat i)) ++ s2l ":" ++ [10] ++ t /\
    table (cube_rows c) t /\ List.length t = 658%nat.
Proof.
  intros W. eexists. split; [reflexivity|]. split.
  - unfold cube_rows. words W. rows.
  - rewrite !app_length, !line_dec. reflexivity.
Qed.
Lemma block_len i c : (i < 1000)%nat -> List.length (dt_block i c) = 672%nat.
Proof.
  intros I. unfold dt_block. rewrite !app_length, !line_dec. unfold pad. rewrite app_length, repeat_length.
  assert (L : (List.length (dec (N.of_nat i)) <= 3)%nat).
  { Transparent dec. unfold dec. Opaque dec. apply digits_len. change (10 ^ N.of_nat 3) with 1000. lia. }
  replace (3 - List.length (dec (N.of_nat i)) + List.length (dec (N.of_nat i)))%nat with 3%nat by lia. reflexivity.
Qed.
Lemma head_len t a rx tx : (List.length t <= 20)%nat -> (List.length a <= 20)%nat -> List.length (dt_head t a rx tx) = 189%nat.
Proof.
  intros T A. unfold dt_head. rewrite !app_length, !line_dec, !line_len.
  rewrite !Nat.max_l by assumption. reflexivity.
Qed.

(** * info *)
Definition info_shown (state typ : N) (layer e t : str) : Prop :=
  (e = s2l "_state" /\
     ((state = IPCP_NULL /\ t = s2l "null" ++ [10]) \/ (state = IPCP_INIT /\ t = s2l "init" ++ [10]) \/
      (state = IPCP_OPERATIONAL /\ t = s2l "operational" ++ [10]) \/ (state = IPCP_SHUTDOWN /\ t = s2l "shutdown" ++ [10]))) \/
  (e = s2l "_type" /\
     ((typ = 0 /\ t = s2l "local" ++ [10]) \/ (typ = 1 /\ t = s2l "unicast" ++ [10]) \/ (typ = 2 /\ t = s2l "broadcast" ++ [10]) \/
      (typ = 3 /\ t = s2l "eth-llc" ++ [10]) \/ (typ = 4 /\ t = s2l "eth-dix" ++ [10]) \/ (typ = 5 /\ t = s2l "udp" ++ [10]))) \/
  (e = s2l "_layer" /\ t = (if state <? IPCP_OPERATIONAL then s2l "(null)" else layer) ++ [10]).

(** Every entry that is listed can be read in full, says what is so, and is as
    long as its attributes say, if the name of the layer is not of full length. *)
Theorem info_file_partial state typ layer now n e len :
  plain n -> In e INFO -> In state [IPCP_NULL; IPCP_INIT; IPCP_OPERATIONAL; IPCP_SHUTDOWN] -> typ < 6 ->
  (List.length layer < 255)%nat -> 257 <= len ->
  exists t, info_read state typ layer (n ++ 47 :: e) len = Ret (Z.of_nat (List.length t)) t /\
    info_shown state typ layer e t /\
    info_attr state typ layer now (n ++ 47 :: e) = Attr (Z.of_nat (List.length t)) now.
Proof.
  intros [P _] I S T L B. unfold info_attr, info_read. rewrite after_plain by exact P.
  change (N.of_nat LAYER_NAME_SIZE + 2) with 257.
  destruct (N.ltb_spec len 257) as [X|_]; [lia|]. change (257 <? 257) with false. cbv iota.
  destruct I as [<-|[<-|[<-|[]]]].
  - exists (state_text state). split; [reflexivity|]. split; [left|reflexivity]. split; [reflexivity|].
    destruct S as [<-|[<-|[<-|[<-|[]]]]]; auto 10.
  - exists (type_text typ). split; [reflexivity|]. split; [right; left|reflexivity]. split; [reflexivity|].
    assert (T' : typ = 0 \/ typ = 1 \/ typ = 2 \/ typ = 3 \/ typ = 4 \/ typ = 5) by lia.
    destruct T' as [-> |[-> |[-> |[-> |[-> | ->]]]]]; auto 10.
  - change (streq (s2l "_layer") (s2l "_state")) with false.
    change (streq (s2l "_layer") (s2l "_type")) with false.
    change (streq (s2l "_layer") (s2l "_layer")) with true. cbv iota.
    set (nm := if state <? IPCP_OPERATIONAL then s2l "(null)" else layer).
    assert (Ln : (List.length nm < 255)%nat) by (unfold nm; destruct (state <? IPCP_OPERATIONAL); [cbn; lia|exact L]).
    unfold LAYER_NAME_SIZE. destruct (Nat.leb_spec 255 (List.length nm)) as [X|_]; [lia|].
    exists (nm ++ [NL]). split; [reflexivity|]. split; [right; right; split; reflexivity|reflexivity].
Qed.
(** A layer name may have 255 characters; then reading it, and asking for the
    attributes of the file, uses bytes that were never written. *)
Theorem info_layer_refuted state typ layer now n :
  plain n -> List.length layer = 255%nat -> IPCP_OPERATIONAL <= state ->
  info_read state typ layer (n ++ 47 :: s2l "_layer") 4096 = Crash /\
  info_attr state typ layer now (n ++ 47 :: s2l "_layer") = ACrash.
Proof.
  intros [P _] L S. unfold info_attr, info_read. rewrite after_plain by exact P.
  change (streq (s2l "_layer") (s2l "_state")) with false.
  change (streq (s2l "_layer") (s2l "_type")) with false.
  change (streq (s2l "_layer") (s2l "_layer")) with true.
  destruct (N.ltb_spec state IPCP_OPERATIONAL) as [X|_]; [lia|]. rewrite L. split; reflexivity.
Qed.
(** Asking for the attributes of a name that is not there uses bytes that were
    never written, for any name. *)
Theorem info_unknown_refuted state typ layer now n e :
  plain n -> ~ In e INFO -> info_attr state typ layer now (n ++ 47 :: e) = ACrash.
Proof.
  intros [P _] I. unfold info_attr, info_read. rewrite after_plain by exact P.
  change (N.of_nat LAYER_NAME_SIZE + 2 <? N.of_nat LAYER_NAME_SIZE + 2) with false. cbv iota.
  rewrite (streq_ne e (s2l "_state")) by (intros ->; apply I; now left).
  rewrite (streq_ne e (s2l "_type")) by (intros ->; apply I; right; now left).
  rewrite (streq_ne e (s2l "_layer")) by (intros ->; apply I; right; right; now left).
  reflexivity.
Qed.

(** * Data transfer *)
Lemma inside_nat k : (k < 4096)%nat -> inside (Z.of_nat k) = true.
Proof. intros H. unfold inside, PROG_MAX_FLOWS. lia. Qed.

(** The file of a descriptor in use can be read in full and shows its counters,
    if the address has at most 19 digits. *)
Theorem dt_file_partial tm me comps rxq txq d n k len :
  plain n -> (k < 4096)%nat -> 2206 <= len -> (forall t, List.length (tm t) = 19%nat) ->
  (stamp (d_stat d k) <> 0)%Z -> (forall i, cube_ok (cubes (d_stat d k) i)) ->
  (forall i, word (rxq i) /\ word (txq i)) ->
  (addr (d_stat d k) = me -> (k < 64)%nat /\ (List.length (comps k) < 20)%nat) -> addr (d_stat d k) < 10 ^ 19 ->
  exists hd t0 t1 t2 text,
    dt_read tm me comps rxq txq d (n ++ 47 :: dec (N.of_nat k)) len = Ret 2205 text /\ List.length text = 2205%nat /\
    text = cells "Flow established at:      " (tm (stamp (d_stat d k))) ++
           cells "Endpoint address:         " (if addr (d_stat d k) =? me then comps k else dec (addr (d_stat d k))) ++
           hd ++ [10] ++ s2l "Qos cube   0:" ++ [10] ++ t0 ++ s2l "Qos cube   1:" ++ [10] ++ t1 ++ s2l "Qos cube   2:" ++ [10] ++ t2 /\
    table [("Queued packets (rx):      ", if (64 <=? k)%nat then rxq k else 0);
           ("Queued packets (tx):      ", if (64 <=? k)%nat then txq k else 0)]%string hd /\
    table (cube_rows (cubes (d_stat d k) 0)) t0 /\ table (cube_rows (cubes (d_stat d k) 1)) t1 /\
    table (cube_rows (cubes (d_stat d k) 2)) t2.
Proof.
  intros [P _] K B T U C Q Me A.
  destruct (cube_table 0 _ (C 0%nat)) as (t0 & E0 & T0 & _).
  destruct (cube_table 1 _ (C 1%nat)) as (t1 & E1 & T1 & _).
  destruct (cube_table 2 _ (C 2%nat)) as (t2 & E2 & T2 & _).
  set (rx := if (64 <=? k)%nat then rxq k else 0). set (tx := if (64 <=? k)%nat then txq k else 0).
  set (a := if addr (d_stat d k) =? me then comps k else dec (addr (d_stat d k))).
  assert (Wr : word rx) by (unfold rx; destruct (64 <=? k)%nat; [apply Q|reflexivity]).
  assert (Wt : word tx) by (unfold tx; destruct (64 <=? k)%nat; [apply Q|reflexivity]).
  assert (La : (List.length a < 20)%nat).
  { unfold a. destruct (N.eqb_spec (addr (d_stat d k)) me) as [E|E]; [exact (proj2 (Me E))|].
    Transparent dec. unfold dec. Opaque dec. pose proof (digits_len 19 (addr (d_stat d k)) 18) as D.
    change (N.of_nat 19) with 19 in D. specialize (D A). clear - D. lia. }
  set (text := dt_head (tm (stamp (d_stat d k))) a rx tx ++
     List.concat (List.map (fun i => dt_block i (cubes (d_stat d k) i)) (List.seq 0 QOS_CUBE_MAX))).
  assert (Lt : List.length text = 2205%nat).
  { unfold text. rewrite app_length, head_len by (rewrite ?T; lia).
    cbn [QOS_CUBE_MAX List.seq List.map List.concat]. rewrite !app_length, !block_len by lia. reflexivity. }
  exists (line "Queued packets (rx):      " 20 (dec rx) ++ line "Queued packets (tx):      " 20 (dec tx)), t0, t1, t2, text.
  split; [|split; [exact Lt|split; [|split; [|split; [exact T0|split; [exact T1|exact T2]]]]]].
  - unfold dt_read. rewrite after_plain by exact P.
    rewrite atoi_dec by (clear - K; change (2 ^ 31) with 2147483648; lia). rewrite nat_N_Z.
    change (N.of_nat RIB_FILE_STRLEN) with 2205.
    destruct (N.ltb_spec len 2205) as [X|_]; [lia|]. rewrite inside_nat by exact K. cbn [negb]. cbv iota.
    rewrite Nat2Z.id. cbv zeta.
    destruct (Z.eqb_spec (stamp (d_stat d k)) 0) as [X|_]; [elim (U X)|].
    change PROG_RES_FDS with 64%nat.
    assert (G : (addr (d_stat d k) =? me) && (64 <=? k)%nat = false).
    { destruct (N.eqb_spec (addr (d_stat d k)) me) as [E|E]; [|reflexivity]. destruct (Me E) as [M _].
      cbn [andb]. apply Nat.leb_gt. exact M. }
    rewrite G. fold a rx tx. fold text.
    destruct (Nat.leb_spec 20 (List.length a)) as [X|_]; [lia|]. rewrite Lt.
    change (N.of_nat 2205) with 2205. destruct (N.leb_spec len 2205) as [X|_]; [lia|]. reflexivity.
  - unfold text. cbn [QOS_CUBE_MAX List.seq List.map List.concat]. rewrite E0, E1, E2.
    unfold dt_head. rewrite <- !line_cells, <- !app_assoc, app_nil_r. reflexivity.
  - apply TRow; [now apply line_row|]. now apply table_last, line_row.
Qed.
(** Without those conditions: any name of the directory that is not a descriptor,
    an address of 20 digits, a buffer of just the size of the file. *)
Theorem dt_range_refuted tm me comps rxq txq d n e :
  plain n -> (atoi e < 0 \/ 4096 <= atoi e)%Z ->
  dt_read tm me comps rxq txq d (n ++ 47 :: e) 4096 = Crash /\ dt_attr d (n ++ 47 :: e) = ACrash.
Proof.
  intros [P _] A. unfold dt_read, dt_attr. rewrite after_plain by exact P.
  assert (I : inside (atoi e) = false) by (unfold inside, PROG_MAX_FLOWS; lia). rewrite I. split; reflexivity.
Qed.
Theorem dt_address_refuted tm me comps rxq txq d n k :
  plain n -> (k < 4096)%nat -> (stamp (d_stat d k) <> 0)%Z -> addr (d_stat d k) <> me -> 10 ^ 19 <= addr (d_stat d k) ->
  dt_read tm me comps rxq txq d (n ++ 47 :: dec (N.of_nat k)) 4096 = Crash.
Proof.
  intros [P _] K U Ne A. unfold dt_read. rewrite after_plain by exact P.
  rewrite atoi_dec by (clear - K; change (2 ^ 31) with 2147483648; lia). rewrite nat_N_Z, inside_nat by exact K.
  change (4096 <? N.of_nat RIB_FILE_STRLEN) with false. cbn [negb]. cbv iota zeta. rewrite Nat2Z.id.
  destruct (Z.eqb_spec (stamp (d_stat d k)) 0) as [X|_]; [elim (U X)|].
  destruct (N.eqb_spec (addr (d_stat d k)) me) as [X|_]; [elim (Ne X)|]. cbn [andb].
  assert (L : (20 <= List.length (dec (addr (d_stat d k))))%nat).
  { Transparent dec. unfold dec. Opaque dec. apply digits_min; [exact A|lia]. }
  destruct (Nat.leb_spec 20 (List.length (dec (addr (d_stat d k))))) as [_|X]; [reflexivity|lia].
Qed.
Theorem dt_buffer_refuted tm me comps rxq txq d n k :
  plain n -> (k < 64)%nat -> (forall t, List.length (tm t) = 19%nat) -> (stamp (d_stat d k) <> 0)%Z ->
  addr (d_stat d k) = me -> (List.length (comps k) < 20)%nat ->
  dt_attr d (n ++ 47 :: dec (N.of_nat k)) <> ACrash /\
  dt_read tm me comps rxq txq d (n ++ 47 :: dec (N.of_nat k)) 2205 = Crash.
Proof.
  intros [P _] K T U E L. unfold dt_read, dt_attr. rewrite after_plain by exact P.
  rewrite atoi_dec by (clear - K; change (2 ^ 31) with 2147483648; lia). rewrite nat_N_Z, inside_nat by (clear - K; lia).
  change (2205 <? N.of_nat RIB_FILE_STRLEN) with false. cbn [negb]. cbv iota zeta. rewrite Nat2Z.id.
  split; [now destruct (_ =? -1)%Z|].
  destruct (Z.eqb_spec (stamp (d_stat d k)) 0) as [X|_]; [elim (U X)|].
  rewrite E, N.eqb_refl. cbn [andb]. unfold PROG_RES_FDS. destruct (Nat.leb_spec 64 k) as [X|_]; [lia|].
  destruct (Nat.leb_spec 20 (List.length (comps k))) as [X|_]; [lia|].
  rewrite app_length, head_len by (rewrite ?T; lia).
  cbn [QOS_CUBE_MAX List.seq List.map List.concat]. rewrite !app_length, !block_len by lia. reflexivity.
Qed.
(** The attributes of a descriptor that is not in use: a file of full size, of
    which nothing can be read. *)
Theorem dt_unused_refuted tm me comps rxq txq d n k :
  plain n -> (k < 4096)%nat -> (stamp (d_stat d k) = 0)%Z ->
  dt_attr d (n ++ 47 :: dec (N.of_nat k)) = Attr 2205 0 /\
  dt_read tm me comps rxq txq d (n ++ 47 :: dec (N.of_nat k)) 4096 = Ret 0 [].
Proof.
  intros [P _] K U. unfold dt_read, dt_attr. rewrite after_plain by exact P.
  rewrite atoi_dec by (clear - K; change (2 ^ 31) with 2147483648; lia). rewrite nat_N_Z, inside_nat by exact K.
  change (4096 <? N.of_nat RIB_FILE_STRLEN) with false. cbn [negb]. cbv iota zeta. rewrite Nat2Z.id, U. split; reflexivity.
Qed.

(** * What is listed *)
Lemma filter_flip (f g : nat -> bool) x l : NoDup l -> In x l -> f x = false -> g x = true ->
  (forall y, y <> x -> f y = g y) -> List.length (filter g l) = S (List.length (filter f l)).
Proof.
  intros N I F G E. induction l as [|y l IH]; [elim I|]. inversion N as [|? ? Ny Nl]; subst.
  cbn [filter]. destruct (Nat.eq_dec y x) as [->|D].
  - rewrite F, G. cbn [List.length]. f_equal. f_equal. apply filter_ext_in.
    intros z Iz. symmetry. apply E. intros ->. exact (Ny Iz).
  - destruct I as [I|I]; [elim (D I)|]. rewrite (E y D). destruct (g y); cbn [List.length]; rewrite IH by assumption; reflexivity.
Qed.
Lemma dt_inv h : proper h ->
  (forall k, is_used (dt_after h) k = in_use h k) /\ d_n (dt_after h) = Z.of_nat (List.length (all_in_use h)) /\
  (forall k, in_use h k = true -> (k < 4096)%nat).
Proof.
  induction h as [|e h IH]; intros Pr.
  - split; [reflexivity|]. split; [|discriminate].
    assert (E : all_in_use [] = []) by (unfold all_in_use; induction (List.seq 0 4096); [reflexivity|exact IHl]).
    now rewrite E.
  - destruct e as [now fd a|now fd]; cbn [proper] in Pr.
    + destruct Pr as (Hf & Ha & Hn & Hu & Pr). destruct (IH Pr) as (I1 & I2 & I3).
      cbn [dt_after in_use]. unfold stat_used. destruct (N.eqb_spec a 0) as [X|_]; [elim (Ha X)|].
      split; [|split].
      * intros k. unfold is_used. cbn [d_stat]. destruct (Nat.eqb_spec k fd) as [_|_]; [|apply I1].
        cbn [stamp]. apply negb_true_iff. now apply Z.eqb_neq.
      * cbn [d_n]. rewrite I2. unfold all_in_use.
        rewrite (filter_flip (in_use h) (in_use (Take now fd a :: h)) fd).
        -- clear. lia.
        -- apply seq_NoDup.
        -- apply in_seq. clear - Hf. lia.
        -- exact Hu.
        -- cbn [in_use]. now rewrite Nat.eqb_refl.
        -- intros y Y. cbn [in_use]. apply Nat.eqb_neq in Y. now rewrite Y.
      * intros k. destruct (Nat.eqb_spec k fd) as [E|_]; [rewrite E; intros _; exact Hf|apply I3].
    + destruct Pr as (Hu & Pr). destruct (IH Pr) as (I1 & I2 & I3).
      cbn [dt_after in_use]. unfold stat_used. cbn [N.eqb].
      split; [|split].
      * intros k. unfold is_used. cbn [d_stat]. destruct (Nat.eqb_spec k fd) as [_|_]; [reflexivity|apply I1].
      * cbn [d_n]. rewrite I2. unfold all_in_use.
        rewrite (filter_flip (in_use (Leave now fd :: h)) (in_use h) fd).
        -- clear. lia.
        -- apply seq_NoDup.
        -- apply in_seq. pose proof (I3 fd Hu) as X. clear - X. lia.
        -- cbn [in_use]. now rewrite Nat.eqb_refl.
        -- exact Hu.
        -- intros y Y. cbn [in_use]. apply Nat.eqb_neq in Y. now rewrite Y.
      * intros k. destruct (Nat.eqb_spec k fd) as [_|_]; [discriminate|apply I3].
Qed.

Section Scan.
  Variable M : nat.
  Hypothesis HM : PROG_MAX_FLOWS = M.
  Lemma scan_high fuel u i : (M - i <= fuel)%nat -> (64 <= i)%nat -> dt_scan fuel u i = filter u (List.seq i (M - i)).
  Proof.
    revert i; induction fuel as [|f IH]; intros i F I.
    - replace (M - i)%nat with 0%nat by lia. reflexivity.
    - cbn [dt_scan]. rewrite HM. destruct (Nat.leb_spec M i) as [L|L].
      + replace (M - i)%nat with 0%nat by lia. reflexivity.
      + replace (M - i)%nat with (S (M - S i)) by lia. cbn [List.seq filter].
        destruct (u i); [f_equal; apply IH; lia|].
        unfold PROG_RES_FDS. destruct (Nat.ltb_spec i 64) as [X|_]; [lia|]. apply IH; lia.
  Qed.
  Lemma scan_low fuel u i k : (64 < M)%nat -> (M - i <= fuel)%nat -> (i <= k)%nat -> (k <= 64)%nat ->
    (forall j, i <= j < k -> u j = true)%nat -> ((k < 64)%nat -> u k = false) ->
    dt_scan fuel u i = List.seq i (k - i) ++ (if (k <? 64)%nat then filter u (List.seq 65 (M - 65)) else filter u (List.seq 64 (M - 64))).
  Proof.
    intros HM' F I K U V. remember (k - i)%nat as n eqn:En. revert fuel i F I U En.
    induction n as [|n IH]; intros fuel i F I U En.
    - assert (E : i = k) by lia. subst i. cbn [List.seq app].
      destruct (Nat.ltb_spec k 64) as [L|L].
      + destruct fuel as [|f]; [lia|]. cbn [dt_scan]. rewrite HM.
        destruct (Nat.leb_spec M k) as [X|_]; [lia|]. rewrite (V L). unfold PROG_RES_FDS.
        destruct (Nat.ltb_spec k 64) as [_|X]; [|lia]. apply scan_high; lia.
      + assert (k = 64%nat) by lia. subst k. apply scan_high; lia.
    - destruct fuel as [|f]; [lia|]. cbn [dt_scan]. rewrite HM.
      destruct (Nat.leb_spec M i) as [X|_]; [lia|]. rewrite U by lia. cbn [List.seq app]. f_equal.
      apply IH; try lia. intros j J. apply U. lia.
  Qed.
  Lemma all_true u a n : (forall j, a <= j < a + n -> u j = true)%nat -> filter u (List.seq a n) = List.seq a n.
  Proof.
    revert a; induction n as [|n IH]; intros a H; [reflexivity|]. cbn [List.seq filter]. rewrite H by lia.
    f_equal. apply IH. intros j J. apply H. lia.
  Qed.
  Lemma all_false u a n : (forall j, a <= j < a + n -> u j = false)%nat -> filter u (List.seq a n) = [].
  Proof.
    revert a; induction n as [|n IH]; intros a H; [reflexivity|]. cbn [List.seq filter]. rewrite H by lia.
    apply IH. intros j J. apply H. lia.
  Qed.
  Lemma scan_all u k : (64 < M)%nat -> (k <= 64)%nat -> (forall j, j < k -> u j = true)%nat ->
    ((k < 64)%nat -> forall j, (k <= j <= 64)%nat -> u j = false) ->
    dt_scan M u 0 = filter u (List.seq 0 M).
  Proof.
    intros HM' K U V. rewrite (scan_low M u 0 k) by (try lia; intros; first [apply U; lia|apply V; lia]).
    replace (k - 0)%nat with k by lia. destruct (Nat.ltb_spec k 64) as [L|L].
    - replace M with (k + ((65 - k) + (M - 65)))%nat at 2 by lia. rewrite seq_app, seq_app, !filter_app.
      rewrite (all_true u 0 k) by (intros; apply U; lia). rewrite (all_false u (0 + k) (65 - k)) by (intros; apply V; lia).
      cbn [app]. replace (0 + k + (65 - k))%nat with 65%nat by lia. reflexivity.
    - assert (k = 64%nat) by lia. subst k.
      replace M with (64 + (M - 64))%nat at 2 by lia. rewrite seq_app, filter_app.
      rewrite (all_true u 0 64) by (intros; apply U; lia). reflexivity.
  Qed.
  Lemma scan_less u j : (64 < M)%nat -> (j < 64)%nat -> u j = false -> u 64%nat = true ->
    (List.length (dt_scan M u 0) < List.length (filter u (List.seq 0 M)))%nat.
  Proof.
    intros HM' J F T.
    assert (X : exists k, (k < 64)%nat /\ u k = false /\ forall i, (i < k)%nat -> u i = true).
    { clear - J F. revert F. induction j as [j IH] using (well_founded_induction Wf_nat.lt_wf). intros F.
      destruct (forallb u (List.seq 0 j)) eqn:A.
      - exists j. split; [exact J|]. split; [exact F|]. intros i I. rewrite forallb_forall in A. apply A, in_seq. lia.
      - assert (Y : exists i, (i < j)%nat /\ u i = false).
        { clear - A. assert (G : forall a n, forallb u (List.seq a n) = false -> exists i, (i < a + n)%nat /\ u i = false).
          { intros a n; revert a; induction n as [|n IH]; intros a H; [discriminate|]. cbn [List.seq forallb] in H.
            destruct (u a) eqn:E; [destruct (IH (S a) H) as (i & I1 & I2); exists i; split; [lia|exact I2]|exists a; split; [lia|exact E]]. }
          destruct (G _ _ A) as (i & I1 & I2). exists i. split; [lia|exact I2]. }
        destruct Y as (i & I1 & I2). exact (IH i I1 ltac:(lia) I2). }
    destruct X as (k & K & Fk & Uk).
    rewrite (scan_low M u 0 k) by (try lia; intros; first [apply Uk; lia|exact Fk]).
    destruct (Nat.ltb_spec k 64) as [_|X]; [|lia]. replace (k - 0)%nat with k by lia.
    replace M with (k + ((64 - k) + (1 + (M - 65))))%nat at 2 by lia.
    rewrite !seq_app, !filter_app, !app_length.
    rewrite (all_true u 0 k) by (intros; apply Uk; lia).
    replace (0 + k + (64 - k))%nat with 64%nat by lia. replace (64 + 1)%nat with 65%nat by lia.
    cbn [List.seq filter]. rewrite T. cbn [List.length]. lia.
  Qed.
End Scan.

Lemma some_in_use h k : (k < 4096)%nat -> in_use h k = true -> (1 <= List.length (all_in_use h))%nat.
Proof.
  intros K U. unfold all_in_use. assert (I : In k (filter (in_use h) (List.seq 0 4096))).
  { apply filter_In. split; [apply in_seq; clear - K; lia|exact U]. }
  destruct (filter (in_use h) (List.seq 0 4096)); [elim I|cbn [List.length]; clear; lia].
Qed.
Lemma dt_scan_used M d h : (forall k, is_used d k = in_use h k) -> dt_scan M (is_used d) 0 = dt_scan M (in_use h) 0.
Proof.
  intros E. generalize 0%nat as i. induction M as [|f IH]; intros i; [reflexivity|]. cbn [dt_scan]. rewrite E, !IH. reflexivity.
Qed.

(** The descriptors in use are listed, in order, if those in use below 64 are the
    first ones, and 64 is not in use unless all of them are. *)
Theorem dt_list_partial h k : proper h -> (k <= 64)%nat ->
  (forall j, (j < k)%nat -> in_use h j = true) -> ((k < 64)%nat -> forall j, (k <= j <= 64)%nat -> in_use h j = false) ->
  dt_list (dt_after h) = Listed (List.map (fun i => dec (N.of_nat i)) (all_in_use h)).
Proof.
  intros Pr K U V. destruct (dt_inv h Pr) as (I1 & I2 & I3). unfold dt_list. rewrite I2.
  assert (S0 : dt_scan PROG_MAX_FLOWS (is_used (dt_after h)) 0 = all_in_use h).
  { rewrite (dt_scan_used _ _ _ I1). unfold all_in_use. change 4096%nat with PROG_MAX_FLOWS.
    assert (G : (64 < PROG_MAX_FLOWS)%nat) by (apply Nat.ltb_lt; reflexivity).
    exact (scan_all PROG_MAX_FLOWS eq_refl (in_use h) k G K U V). }
  rewrite S0, Z.eqb_refl.
  destruct (Z.ltb_spec (Z.of_nat (List.length (all_in_use h))) 1) as [X|_]; [|reflexivity].
  destruct (all_in_use h); [reflexivity|]. cbn [List.length] in X. clear - X. lia.
Qed.
(** The first neighbour gets descriptor 64.  With fewer than 64 components the
    list of the directory then ends in a failed assertion. *)
Theorem dt_list_refuted h j : proper h -> (j < 64)%nat -> in_use h j = false -> in_use h 64 = true ->
  dt_list (dt_after h) = LCrash.
Proof.
  intros Pr J F T. destruct (dt_inv h Pr) as (I1 & I2 & I3). unfold dt_list. rewrite I2, (dt_scan_used _ _ _ I1).
  assert (G : (64 < PROG_MAX_FLOWS)%nat) by (apply Nat.ltb_lt; reflexivity).
  pose proof (scan_less PROG_MAX_FLOWS eq_refl (in_use h) j G J F T) as L.
  unfold all_in_use. change 4096%nat with PROG_MAX_FLOWS. revert L.
  generalize (List.length (filter (in_use h) (List.seq 0 PROG_MAX_FLOWS))) as m. intros m L. set (l := dt_scan PROG_MAX_FLOWS (in_use h) 0) in *. clearbody l. clear - L.
  destruct (Z.ltb_spec (Z.of_nat m) 1) as [X|_]; [lia|].
  destruct (Z.eqb_spec (Z.of_nat (List.length l)) (Z.of_nat m)) as [X|_]; [lia|reflexivity].
Qed.

(** * Flows *)
(** The file of a flow can be read in full; every label has its counter, except
    that the packets whose receiving failed are not shown: their place has the
    bytes. *)
Definition fa_rows_seen (f : faflow) : list (string * N) :=
  List.map (fun p => if String.eqb (fst p) "Receive failed (packets):        " then (fst p, b_rcv_f f) else p) (fa_rows f).
Theorem fa_file_partial tm s n k len :
  plain n -> (k < 4096)%nat -> 1536 <= len -> (forall t, List.length (tm t) = 19%nat) ->
  (f_stamp (a_flow s k) <> 0)%Z -> fa_ok (a_flow s k) -> mb_ok (a_ctx s k) ->
  exists t u text,
    fa_read tm true s (n ++ 47 :: dec (N.of_nat k)) len = Ret 1296 text /\ List.length text = 1296%nat /\
    text = cells "Flow established at:             " (tm (f_stamp (a_flow s k))) ++ t ++
           cells "Congestion avoidance algorithm:  " (s2l "Multi-bit ECN") ++ u ++
           cells "Current congestion regime:       "
             (if negb (tx_cav (a_ctx s k)) then s2l "Slow start"
              else if tx_ece (a_ctx s k) =? 0 then s2l "Additive inc" else s2l "Multiplicative dec") /\
    table (fa_rows_seen (a_flow s k)) t /\ table (mb_rows (a_ctx s k)) u.
Proof.
  intros [P _] K B T U F C.
  set (f := a_flow s k) in *. set (c := a_ctx s k) in *.
  assert (Cm : 2 ^ tx_mul c mod 2 ^ 64 = 2 ^ tx_mul c).
  { apply N.mod_small. pose proof C as C'. unfold mb_ok, mb_rows in C'.
    do 4 (inversion C' as [|? ? _ C'']; clear C'; rename C'' into C'; subst). now inversion C'. }
  set (text := fa_text (tm (f_stamp f)) f (mb_text c)).
  assert (Lt : List.length text = 1296%nat).
  { unfold text, fa_text, mb_text. rewrite !app_length, !line_dec, !line_len, T.
    destruct (tx_cav c); cbn [negb]; [destruct (tx_ece c =? 0)|]; reflexivity. }
  eexists _, _, text. split; [|split; [exact Lt|split; [|split]]].
  - unfold fa_read. rewrite after_plain by exact P.
    rewrite atoi_dec by (clear - K; change (2 ^ 31) with 2147483648; lia). rewrite nat_N_Z, inside_nat by exact K.
    cbn [negb]. cbv iota zeta. destruct (N.ltb_spec len 1536) as [X|_]; [lia|]. rewrite Nat2Z.id. fold f c.
    destruct (Z.eqb_spec (f_stamp f) 0) as [X|_]; [elim (U X)|]. fold text. unfold strret. rewrite Lt.
    destruct (N.leb_spec len (N.of_nat 1296)) as [X|_]; [clear - X B; lia|]. reflexivity.
  - unfold text, fa_text, mb_text. rewrite <- !line_cells.
    assert (E : (if negb (tx_cav c) then s2l "Slow start" else if negb (tx_ece c =? 0) then s2l "Multiplicative dec" else s2l "Additive inc") =
                (if negb (tx_cav c) then s2l "Slow start" else if tx_ece c =? 0 then s2l "Additive inc" else s2l "Multiplicative dec"))
      by now destruct (tx_cav c), (tx_ece c =? 0).
    rewrite E. rewrite (app_assoc _ (line "Received flow updates (packets): " _ _)).
    instantiate (1 := line "Upstream congestion level:       " 20 (dec (tx_ece c)) ++
      line "Upstream packet counter:         " 20 (dec (tx_ctr c)) ++
      line "Downstream congestion level:     " 20 (dec (rx_ece c)) ++
      line "Downstream packet counter:       " 20 (dec (rx_ctr c)) ++
      line "Congestion window size (ns):     " 20 (dec (2 ^ tx_mul c mod 2 ^ 64)) ++
      line "Packets in this window:          " 20 (dec (tx_wpc c)) ++
      line "Bytes in this window:            " 20 (dec (tx_wbc c)) ++
      line "Max bytes in this window:        " 20 (dec (tx_wbl c))).
    instantiate (1 := line "Remote address:                  " 20 (dec (r_addr f)) ++
      line "Local endpoint ID:               " 20 (dec (s_eid f)) ++
      line "Remote endpoint ID:              " 20 (dec (r_eid f)) ++
      line "Sent (packets):                  " 20 (dec (p_snd f)) ++
      line "Sent (bytes):                    " 20 (dec (b_snd f)) ++
      line "Send failed (packets):           " 20 (dec (p_snd_f f)) ++
      line "Send failed (bytes):             " 20 (dec (b_snd_f f)) ++
      line "Received (packets):              " 20 (dec (p_rcv f)) ++
      line "Received (bytes):                " 20 (dec (b_rcv f)) ++
      line "Receive failed (packets):        " 20 (dec (b_rcv_f f)) ++
      line "Receive failed (bytes):          " 20 (dec (b_rcv_f f)) ++
      line "Sent flow updates (packets):     " 20 (dec (u_snd f)) ++
      line "Received flow updates (packets): " 20 (dec (u_rcv f))).
    now rewrite <- !app_assoc.
  - change (fa_rows_seen f) with
      [("Remote address:                  ", r_addr f); ("Local endpoint ID:               ", s_eid f);
       ("Remote endpoint ID:              ", r_eid f);
       ("Sent (packets):                  ", p_snd f); ("Sent (bytes):                    ", b_snd f);
       ("Send failed (packets):           ", p_snd_f f); ("Send failed (bytes):             ", b_snd_f f);
       ("Received (packets):              ", p_rcv f); ("Received (bytes):                ", b_rcv f);
       ("Receive failed (packets):        ", b_rcv_f f); ("Receive failed (bytes):          ", b_rcv_f f);
       ("Sent flow updates (packets):     ", u_snd f); ("Received flow updates (packets): ", u_rcv f)]%string.
    words F. rows.
  - rewrite Cm. unfold mb_rows. words C. rows.
Qed.
(** A flow of which a packet of 100 bytes could not be received. *)
Definition bad_flow : faflow := FaFlow 1 0 0 0 0 0 1 0 100 0 0 5 6 7.
Definition quiet : mbctx := Mb 0 0 0 0 20 0 0 0 false.
Theorem fa_counter_refuted :
  exists s k tm t, (k < 4096)%nat /\ a_flow s k = bad_flow /\ fa_ok (a_flow s k) /\
    fa_read tm true s (file (s2l "flow-allocator") (dec (N.of_nat k))) 4096 = Ret 1296 t /\
    ~ (exists a b v, t = a ++ cells "Receive failed (packets):        " v ++ b /\ List.length a = 540%nat /\ shows v (p_rcv_f (a_flow s k))).
Proof.
  exists (Fas (fun _ => bad_flow) (fun _ => quiet) 1), 65%nat, (fun _ => s2l "2026-01-01 00:00:00"). eexists.
  split; [apply Nat.ltb_lt; reflexivity|]. split; [reflexivity|]. split; [repeat constructor|].
  split; [vm_compute; reflexivity|].
  intros (a & b & v & E & L & V & F & G).
  assert (Lv : List.length v = 1%nat).
  { cbn [p_rcv_f bad_flow a_flow] in V. destruct v as [|c [|c' v]]; [| reflexivity |].
    - destruct G as [G|[G _]]; [discriminate|now elim G].
    - exfalso. destruct G as [G|[_ G]]; [discriminate|]. cbn [hd] in G.
      inversion F as [|? ? D F']; subst. inversion F' as [|? ? D' F'']; subst.
      assert (Ge : 10 <= number (c :: c' :: v)).
      { clear V E. unfold number. cbn [fold_left].
        assert (Mono : forall l x, x <= fold_left (fun a c => a * 10 + (c - 48)) l x).
        { induction l as [|y l IH]; intros x; [cbn; lia|]. cbn [fold_left]. specialize (IH (x * 10 + (y - 48))). lia. }
        specialize (Mono v ((0 * 10 + (c - 48)) * 10 + (c' - 48))). unfold digit in *. lia. }
      rewrite V in Ge. lia. }
  destruct v as [|c [|? ?]]; try discriminate.
  assert (Hc : c = 49).
  { inversion F as [|? ? D _]; subst. cbn [p_rcv_f bad_flow a_flow] in V. rewrite number_one in V. unfold digit in D. lia. }
  subst c. assert (K := f_equal (fun t => nth 592 t 0) E). cbv beta in K.
  rewrite app_nth2 in K by (rewrite L; apply Nat.leb_le; reflexivity). rewrite L in K. vm_compute in K. discriminate.
Qed.
(** With the other congestion avoidance policy, reading any flow's file uses
    bytes that were never written. *)
Theorem fa_nop_refuted tm s n k : plain n -> (k < 4096)%nat -> (f_stamp (a_flow s k) <> 0)%Z ->
  fa_read tm false s (n ++ 47 :: dec (N.of_nat k)) 4096 = Crash.
Proof.
  intros [P _] K U. unfold fa_read. rewrite after_plain by exact P.
  rewrite atoi_dec by (clear - K; change (2 ^ 31) with 2147483648; lia). rewrite nat_N_Z, inside_nat by exact K.
  change (4096 <? 1536) with false. cbn [negb]. cbv iota zeta. rewrite Nat2Z.id.
  destruct (Z.eqb_spec (f_stamp (a_flow s k)) 0) as [X|_]; [elim (U X)|reflexivity].
Qed.
(** Reading refuses a name that is no descriptor; asking for its attributes reads
    outside the table. *)
Theorem fa_range_refuted tm mb s n e len : plain n -> (atoi e < 0 \/ 4096 <= atoi e)%Z ->
  fa_read tm mb s (n ++ 47 :: e) len = Ret (-1) [] /\ fa_attr s (n ++ 47 :: e) = ACrash.
Proof.
  intros [P _] A. unfold fa_read, fa_attr. rewrite after_plain by exact P.
  assert (I : inside (atoi e) = false) by (unfold inside, PROG_MAX_FLOWS; lia). rewrite I. split; reflexivity.
Qed.
(** What is listed: the flows that are there, each once and in order; each can be
    asked for and has the size that is large enough to read it. *)
Theorem fa_list_all s n : plain n ->
  (a_n s = Z.of_nat (List.length (filter (fun i => negb (f_stamp (a_flow s i) =? 0)%Z) (List.seq 0 4096)))) ->
  exists l, fa_list s = Listed (List.map (fun i => dec (N.of_nat i)) l) /\
    (forall i, In i l <-> (i < 4096)%nat /\ (f_stamp (a_flow s i) <> 0)%Z) /\ NoDup l /\
    forall i, In i l -> fa_attr s (n ++ 47 :: dec (N.of_nat i)) = Attr 1536 (f_stamp (a_flow s i)).
Proof.
  intros [P _] E. exists (filter (fa_used s) (List.seq 0 4096)).
  assert (M : forall i, In i (filter (fa_used s) (List.seq 0 4096)) <-> (i < 4096)%nat /\ (f_stamp (a_flow s i) <> 0)%Z).
  { intros i. rewrite filter_In, in_seq. unfold fa_used. rewrite negb_true_iff, Z.eqb_neq.
    clear. intuition lia. }
  split; [|split; [exact M|split]].
  - unfold fa_list. change PROG_MAX_FLOWS with 4096%nat. rewrite E.
    change (fun i => negb (f_stamp (a_flow s i) =? 0)%Z) with (fa_used s).
    generalize (filter (fa_used s) (List.seq 0 4096)) as l. clear. intros l. rewrite Z.eqb_refl.
    destruct (Z.ltb_spec (Z.of_nat (List.length l)) 1) as [X|_]; [|reflexivity].
    destruct l; [reflexivity|]. cbn [List.length] in X. lia.
  - apply NoDup_filter, seq_NoDup.
  - intros i I. apply M in I. destruct I as [I U]. unfold fa_attr. rewrite after_plain by exact P.
    rewrite atoi_dec by (clear - I; change (2 ^ 31) with 2147483648; lia). rewrite nat_N_Z, inside_nat by exact I.
    cbn [negb]. cbv iota zeta. rewrite Nat2Z.id.
    destruct (Z.eqb_spec (f_stamp (a_flow s i)) 0) as [X|_]; [elim (U X)|reflexivity].
Qed.

(** * Links *)
Definition adj_ok (a : adj) : Prop := word (a_src a) /\ word (a_dst a) /\ word (a_seqno a).
Lemma digits_no_dot s : Forall digit s -> ~ In 46 s.
Proof. intros F I. rewrite Forall_forall in F. specialize (F _ I). unfold digit in F. lia. Qed.
Lemma dec_ne n : dec n <> [].
Proof. Transparent dec. unfold dec. Opaque dec. apply digits_ne. Qed.
Lemma dec_digits n : Forall digit (dec n).
Proof. Transparent dec. unfold dec. Opaque dec. apply digits_digit. Qed.
Lemma split_at (c : N) a b x y : ~ In c a -> ~ In c b -> a ++ c :: x = b ++ c :: y -> a = b /\ x = y.
Proof.
  revert b; induction a as [|h a IH]; intros [|k b] A B E; cbn in E.
  - injection E as E. auto.
  - injection E as E _. elim B. now left.
  - injection E as E _. elim A. now left.
  - injection E as <- E. destruct (IH b) as [-> ->]; auto; intros I; [apply A|apply B]; now right.
Qed.
Lemma name_inj a b : adj_ok a -> adj_ok b -> adj_name a = adj_name b -> a_src a = a_src b /\ a_dst a = a_dst b.
Proof.
  intros (A1 & A2 & _) (B1 & B2 & _) E. unfold adj_name in E. cbn [app] in E.
  apply split_at in E; try (apply digits_no_dot, dec_digits). destruct E as [E1 E2].
  split; apply dec_inj; assumption.
Qed.
Lemma get_adj_some l a : Forall adj_ok l -> In a l ->
  exists b, get_adj l (adj_name a) = Some b /\ In b l /\ a_src b = a_src a /\ a_dst b = a_dst a.
Proof.
  intros F I. induction l as [|x l IH]; [elim I|]. inversion F as [|? ? Ox Ol]; subst. cbn [get_adj].
  destruct (streq (adj_name x) (adj_name a)) eqn:E.
  - apply streq_iff in E. exists x. split; [reflexivity|]. split; [now left|].
    apply name_inj; [exact Ox| |exact E]. rewrite Forall_forall in F. now apply F.
  - destruct I as [->|I]; [rewrite streq_refl in E; discriminate|].
    destruct (IH Ol I) as (b & G & Ib & S). exists b. split; [exact G|]. split; [now right|exact S].
Qed.
(** Every link of the database is listed, and can be read in full under the name
    listed, as long as its sequence number has at most 18 digits. *)
Theorem ls_file_partial tm d n a len now : plain n -> In a (db d) -> Forall adj_ok (db d) ->
  (forall t, List.length (tm t) = 19%nat) -> (forall b, In b (db d) -> a_seqno b < 10 ^ 18) -> 105 <= len ->
  exists e l b, ls_list d = Listed l /\ In e l /\ In b (db d) /\ a_src b = a_src a /\ a_dst b = a_dst a /\
    ls_attr d now (n ++ 47 :: e) = Attr 104 (a_stamp b) /\
    exists s1 s2 s3, shows s1 (a_src a) /\ shows s2 (a_dst a) /\ shows s3 (a_seqno b) /\ (List.length s3 <= 18)%nat /\
      ls_read tm d (n ++ 47 :: e) len =
        Ret 104 (cells "src: " s1 ++ cells "dst: " s2 ++ (s2l "seqno: " ++ List.repeat 32 (18 - List.length s3)%nat ++ s3 ++ [10]) ++
                 cells "upd: " (tm (a_stamp b))) /\
      List.length (cells "src: " s1 ++ cells "dst: " s2 ++ (s2l "seqno: " ++ List.repeat 32 (18 - List.length s3)%nat ++ s3 ++ [10]) ++
                 cells "upd: " (tm (a_stamp b))) = 104%nat.
Proof.
  intros [P _] I F T Q B. destruct (get_adj_some _ _ F I) as (b & G & Ib & S1 & S2).
  pose proof F as F'. rewrite Forall_forall in F'. pose proof (F' b Ib) as (W1 & W2 & W3).
  exists (adj_name a), (List.map nb_name (nbs d) ++ List.map adj_name (db d)), b.
  split; [reflexivity|]. split; [apply in_or_app; right; now apply in_map|]. split; [exact Ib|]. split; [exact S1|]. split; [exact S2|].
  split; [unfold ls_attr; rewrite after_plain by exact P; now rewrite G|].
  exists (dec (a_src b)), (dec (a_dst b)), (dec (a_seqno b)).
  assert (L3 : (List.length (dec (a_seqno b)) <= 18)%nat).
  { Transparent dec. unfold dec. Opaque dec. apply digits_len. change (N.of_nat 18) with 18. now apply Q. }
  split; [rewrite <- S1; now apply dec_shows|]. split; [rewrite <- S2; now apply dec_shows|]. split; [now apply dec_shows|]. split; [exact L3|].
  assert (E : adj_text tm b = cells "src: " (dec (a_src b)) ++ cells "dst: " (dec (a_dst b)) ++
     (s2l "seqno: " ++ List.repeat 32 (18 - List.length (dec (a_seqno b)))%nat ++ dec (a_seqno b) ++ [10]) ++ cells "upd: " (tm (a_stamp b))).
  { unfold adj_text. rewrite !line_cells. unfold line, pad. now rewrite <- !app_assoc. }
  rewrite <- E.
  assert (L : List.length (adj_text tm b) = 104%nat).
  { unfold adj_text. rewrite !app_length, !line_dec, !line_len, T. rewrite Nat.max_l by exact L3. reflexivity. }
  split; [|exact L]. unfold ls_read. rewrite after_plain by exact P. rewrite G.
  assert (Z : (List.length (db d) + List.length (nbs d) =? 0)%nat = false).
  { destruct (db d); [elim I|reflexivity]. }
  rewrite Z, L. change (N.of_nat LS_ENTRY_SIZE) with 104. change (N.of_nat 104) with 104.
  destruct (N.ltb_spec len 104) as [X|_]; [lia|]. destruct (N.leb_spec len 104) as [X|_]; [lia|reflexivity].
Qed.
(** A sequence number of 19 digits or more, which a neighbour may send, makes the
    text longer than the size that is returned, and than a buffer of 105 bytes. *)
Theorem ls_seqno_refuted tm a n : plain n -> (forall t, List.length (tm t) = 19%nat) -> adj_ok a -> 10 ^ 18 <= a_seqno a ->
  (exists t, ls_read tm (Lsdb [a] []) (n ++ 47 :: adj_name a) 4096 = Ret 104 t /\ (104 < List.length t)%nat) /\
  ls_read tm (Lsdb [a] []) (n ++ 47 :: adj_name a) 105 = Crash.
Proof.
  intros [P _] T O Q.
  assert (L3 : (19 <= List.length (dec (a_seqno a)) <= 20)%nat).
  { split; [|apply dec_len]. Transparent dec. unfold dec. Opaque dec. apply digits_min; [exact Q|lia]. }
  assert (L : (104 < List.length (adj_text tm a) <= 106)%nat).
  { unfold adj_text. rewrite !app_length, !line_dec, !line_len, T. rewrite Nat.max_r by (clear - L3; lia).
    change (List.length (s2l "src: ")) with 5%nat. change (List.length (s2l "dst: ")) with 5%nat.
    change (List.length (s2l "seqno: ")) with 7%nat. change (List.length (s2l "upd: ")) with 5%nat.
    change (Nat.max 20 19) with 20%nat. clear - L3. lia. }
  unfold ls_read. rewrite after_plain by exact P. cbn [db nbs List.length get_adj]. rewrite streq_refl.
  change (1 + 0 =? 0)%nat with false. cbv iota.
  change (4096 <? N.of_nat LS_ENTRY_SIZE) with false. change (105 <? N.of_nat LS_ENTRY_SIZE) with false. cbv iota.
  split.
  - exists (adj_text tm a). destruct (N.leb_spec 4096 (N.of_nat (List.length (adj_text tm a)))) as [X|_]; [clear - X L; lia|].
    split; [reflexivity|exact (proj1 L)].
  - destruct (N.leb_spec 105 (N.of_nat (List.length (adj_text tm a)))) as [_|X]; [reflexivity|clear - X L; lia].
Qed.
(** The neighbours are listed too, but no such file can be read. *)
Lemma nb_not_adj l b : get_adj l (nb_name b) = None.
Proof.
  induction l as [|a l IH]; [reflexivity|]. cbn [get_adj]. rewrite streq_ne; [exact IH|].
  intros E. unfold nb_name, adj_name in E. pose proof (dec_digits (a_src a)) as D.
  assert (Ne : dec (a_src a) <> []) by (apply dec_ne).
  destruct (dec (a_src a)) as [|c s]; [now elim Ne|]. inversion D as [|? ? Dc _]; subst.
  unfold digit in Dc. destruct (n_dt b); cbn in E; injection E as E _; lia.
Qed.
Theorem ls_neighbour_refuted tm d n b len now : plain n -> In b (nbs d) ->
  exists e l, ls_list d = Listed l /\ In e l /\ e = nb_name b /\ ls_attr d now (n ++ 47 :: e) = Attr 0 now /\
    ls_read tm d (n ++ 47 :: e) len = Ret (-1) [].
Proof.
  intros [P _] I. exists (nb_name b), (List.map nb_name (nbs d) ++ List.map adj_name (db d)).
  split; [reflexivity|]. split; [apply in_or_app; left; now apply in_map|]. split; [reflexivity|].
  unfold ls_attr, ls_read. rewrite after_plain by exact P. rewrite nb_not_adj. split; [reflexivity|].
  now destruct (_ =? 0)%nat.
Qed.

(** * FRCT *)
Lemma sdec_len z : long z -> (List.length (sdec z) <= 20)%nat.
Proof.
  intros L. unfold sdec. destruct (Z.ltb_spec z 0) as [N|N]; [|apply dec_len].
  cbn [List.length]. Transparent dec. unfold dec.
  assert (K : (List.length (digits 19 (Z.to_N (- z))) <= 19)%nat).
  { apply digits_len. change (10 ^ N.of_nat 19) with 10000000000000000000. unfold long in L.
    change (2 ^ 63)%Z with 9223372036854775808%Z in L. lia. }
  clear - K. lia.
Qed.
Lemma line_sdec l z : long z -> List.length (line l 20 (sdec z)) = (List.length (s2l l) + 21)%nat.
Proof. intros H. rewrite line_len. pose proof (sdec_len z H). lia. Qed.
Lemma sdec_shows z : long z -> showsZ (sdec z) z.
Proof.
  intros [L1 L2]. unfold sdec, showsZ. destruct (Z.ltb_spec z 0) as [H|H].
  - right. split; [exact H|]. exists (dec (Z.to_N (- z))). split; [reflexivity|]. apply dec_shows. unfold word. lia.
  - left. split; [exact H|]. apply dec_shows. unfold word. lia.
Qed.
Lemma dec_showsZ n : word n -> showsZ (dec n) (Z.of_N n).
Proof. intros W. left. split; [lia|]. rewrite N2Z.id. now apply dec_shows. Qed.
(** The state of a flow can be read in full, if the buffer is large enough: it
    always takes 1188 bytes, and every label stands before its value. *)
Theorem frct_file_partial flows k f e len : (k < 4096)%nat -> flows k = Some f -> fr_ok f -> 1189 <= len ->
  exists t, frct_read flows (dec (N.of_nat k) ++ 47 :: e) len = Ret 1188 t /\ List.length t = 1188%nat /\
    tableZ (fr_rows f) t.
Proof.
  intros K E (Fl & Fw) B.
  assert (Pn : ~ In 47 (dec (N.of_nat k))).
  { intros I. pose proof (dec_digits (N.of_nat k)) as D. rewrite Forall_forall in D. specialize (D _ I). unfold digit in D. lia. }
  repeat match goal with H : Forall _ (_ :: _) |- _ => let a := fresh in inversion H as [|? ? a ?]; clear H; subst end.
  assert (L : List.length (fr_text f) = 1188%nat).
  { unfold fr_text. rewrite !app_length, !line_dec, !line_sdec by assumption. reflexivity. }
  assert (S : tableZ (fr_rows f) (fr_text f)).
  { unfold fr_text, fr_rows. rewrite !line_cells.
    repeat (apply ZRow; [first [apply sdec_shows; assumption | apply dec_showsZ; assumption]|]).
    rewrite <- (app_nil_r (cells _ _)). apply ZRow; [apply dec_showsZ; assumption|constructor]. }
  exists (fr_text f). split; [|split; [exact L|exact S]].
  unfold frct_read. rewrite after_plain, before_plain by exact Pn.
  rewrite atoi_dec by (clear - K; change (2 ^ 31) with 2147483648; lia). rewrite nat_N_Z, inside_nat by exact K.
  cbn [negb]. cbv iota zeta. rewrite Nat2Z.id, E. unfold strret. rewrite L.
  destruct (N.leb_spec len (N.of_nat 1188)) as [X|_]; [clear - X B; lia|reflexivity].
Qed.
(** The size of the buffer is not looked at. *)
Theorem frct_small_refuted flows k f e len : (k < 4096)%nat -> flows k = Some f -> fr_ok f -> len < 1189 ->
  frct_read flows (dec (N.of_nat k) ++ 47 :: e) len = Crash.
Proof.
  intros K E (Fl & Fw) B.
  assert (Pn : ~ In 47 (dec (N.of_nat k))).
  { intros I. pose proof (dec_digits (N.of_nat k)) as D. rewrite Forall_forall in D. specialize (D _ I). unfold digit in D. lia. }
  repeat match goal with H : Forall _ (_ :: _) |- _ => let a := fresh in inversion H as [|? ? a ?]; clear H; subst end.
  assert (L : List.length (fr_text f) = 1188%nat).
  { unfold fr_text. rewrite !app_length, !line_dec, !line_sdec by assumption. reflexivity. }
  unfold frct_read. rewrite after_plain, before_plain by exact Pn.
  rewrite atoi_dec by (clear - K; change (2 ^ 31) with 2147483648; lia). rewrite nat_N_Z, inside_nat by exact K.
  cbn [negb]. cbv iota zeta. rewrite Nat2Z.id, E, L.
  destruct (N.leb_spec len (N.of_nat 1188)) as [_|X]; [reflexivity|clear - X B; lia].
Qed.

Print Assumptions info_file_partial.
Print Assumptions dt_file_partial.
Print Assumptions dt_list_partial.
Print Assumptions dt_list_refuted.
Print Assumptions fa_file_partial.
Print Assumptions fa_counter_refuted.
Print Assumptions fa_list_all.
Print Assumptions ls_file_partial.
Print Assumptions frct_file_partial.

(** * Cases that meet the hypotheses *)
(** The flow allocator and the directory take 0 and 1; the first neighbour, with
    address 7, gets 64: the list fails; before that it is right. *)
Definition before_nb : list dev := [Take 1 1 5; Take 1 0 5].
Definition with_nb : list dev := Take 1 64 7 :: before_nb.
Example dt_list_met :
  proper before_nb /\ dt_list (dt_after before_nb) = Listed [[48]; [49]] /\
  proper with_nb /\ in_use with_nb 2 = false /\ in_use with_nb 64 = true.
Proof.
  assert (L : forall a b, Nat.ltb a b = true -> (a < b)%nat) by (intros a b; apply Nat.ltb_lt).
  assert (P : proper before_nb).
  { cbn [proper before_nb]. split; [now apply L|]. split; [discriminate|]. split; [discriminate|]. split; [reflexivity|].
    split; [now apply L|]. split; [discriminate|]. split; [discriminate|]. split; [reflexivity|exact I]. }
  split; [exact P|]. split; [vm_compute; reflexivity|]. split; [|split; reflexivity].
  cbn [proper with_nb]. split; [now apply L|]. split; [discriminate|]. split; [discriminate|]. split; [reflexivity|exact P].
Qed.
Example atoi_met : atoi (s2l "5000") = 5000%Z /\ atoi (s2l "-1") = (-1)%Z /\ atoi (s2l "x") = 0%Z /\ atoi (s2l "4294967296") = 0%Z.
Proof. vm_compute. auto. Qed.
Example info_met :
  info_read IPCP_OPERATIONAL 1 (s2l "net") (s2l "info/_layer") 4096 = Ret 4 (s2l "net" ++ [10]) /\ plain (s2l "info") /\
  info_attr IPCP_OPERATIONAL 1 (s2l "net") 3 (s2l "info/foo") = ACrash.
Proof. split; [reflexivity|]. split; [|reflexivity]. split; [cbn; intuition discriminate|discriminate]. Qed.
