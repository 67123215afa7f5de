From Coq Require Import ZArith Lia ZifyBool.
From Verif Require Import TimeOpsModel.
Open Scope Z_scope.

Definition value (unit : Z) (t : tm) : Z := sec t * unit + sub t.
Definition normal (unit : Z) (t : tm) : Prop := 0 <= sub t < unit.

Lemma carry_spec unit (U : 0 < unit) : forall fuel s x, 0 <= x -> x / unit < Z.of_nat fuel ->
  exists r, carry fuel unit s x = Some r /\ value unit r = s * unit + x /\ normal unit r.
Proof.
  induction fuel as [|f IH]; intros s x Hx Hf; cbn [carry]; [pose proof (Z.div_pos x unit Hx U); lia|].
  destruct (x >=? unit) eqn:E.
  - destruct (IH (s + 1) (x - unit)) as (r & E1 & V & Nr); [lia| |].
    + replace (x - unit) with (x + (-1) * unit) by lia. rewrite Z.div_add by lia. lia.
    + exists r. split; [exact E1|]. split; [|exact Nr]. rewrite V. lia.
  - exists (mk_tm s x). split; [reflexivity|]. unfold value, normal; cbn [sec sub]. lia.
Qed.

Lemma borrow_spec unit (U : 0 < unit) : forall fuel s x, x < unit -> - (x / unit) < Z.of_nat fuel ->
  exists r, borrow fuel unit s x = Some r /\ value unit r = s * unit + x /\ normal unit r.
Proof.
  induction fuel as [|f IH]; intros s x Hx Hf; cbn [borrow].
  - assert (0 < x / unit) by lia. assert (unit <= x); [|lia]. pose proof (Z.mul_div_le x unit U). nia.
  - destruct (x <? 0) eqn:E.
    + destruct (IH (s - 1) (x + unit)) as (r & E1 & V & Nr); [lia| |].
      * replace (x + unit) with (x + 1 * unit) by lia. rewrite Z.div_add by lia. lia.
      * exists r. split; [exact E1|]. split; [|exact Nr]. rewrite V. lia.
    + exists (mk_tm s x). split; [reflexivity|]. unfold value, normal; cbn [sec sub]. lia.
Qed.

Lemma add_exact unit t i : 0 < unit -> 0 <= sub t -> 0 <= sub i ->
  exists r, add_unit unit t i = Some r /\ value unit r = value unit t + value unit i /\ normal unit r.
Proof.
  intros U Ht Hi. unfold add_unit.
  destruct (carry_spec unit U (S (Z.to_nat ((sub t + sub i) / unit))) (sec t + sec i) (sub t + sub i)) as (r & E & V & Nr).
  - lia.
  - assert (0 <= (sub t + sub i) / unit) by (apply Z.div_pos; lia). lia.
  - exists r. split; auto. split; auto. rewrite V. unfold value. lia.
Qed.

Lemma diff_exact unit t i : 0 < unit -> sub t < unit -> 0 <= sub i ->
  exists r, diff_unit unit t i = Some r /\ value unit r = value unit t - value unit i /\ normal unit r.
Proof.
  intros U Ht Hi. unfold diff_unit.
  destruct (borrow_spec unit U (S (Z.to_nat (- ((sub t - sub i) / unit)))) (sec t - sec i) (sub t - sub i)) as (r & E & V & Nr).
  - lia.
  - lia.
  - exists r. split; auto. split; auto. rewrite V. unfold value. lia.
Qed.

Ltac Zify.zify_post_hook ::= Z.to_euclidean_division_equations.
Lemma ts_diff_us_near t0 tx : Z.abs (1000 * ts_diff_us t0 tx - (value BILLION tx - value BILLION t0)) < 1000.
Proof. unfold ts_diff_us, value, BILLION, MILLION. lia. Qed.
Lemma ts_diff_ms_near t0 tx : Z.abs (MILLION * ts_diff_ms t0 tx - (value BILLION tx - value BILLION t0)) < MILLION.
Proof. unfold ts_diff_ms, value, BILLION, MILLION. lia. Qed.

Lemma init_ms v : 0 <= v -> value BILLION (ts_init_ms v) = v * 1000000 /\ normal BILLION (ts_init_ms v).
Proof. intros. unfold ts_init_ms, value, normal, BILLION, MILLION; cbn [sec sub]. lia. Qed.
Lemma init_us v : 0 <= v -> value BILLION (ts_init_us v) = v * 1000 /\ normal BILLION (ts_init_us v).
Proof. intros. unfold ts_init_us, value, normal, BILLION, MILLION; cbn [sec sub]. lia. Qed.
Lemma init_ns v : 0 <= v -> value BILLION (ts_init_ns v) = v /\ normal BILLION (ts_init_ns v).
Proof. intros. unfold ts_init_ns, value, normal, BILLION, MILLION; cbn [sec sub]. lia. Qed.
Lemma init_tv_ms v : 0 <= v -> value MILLION (tv_init_ms v) = v * 1000 /\ normal MILLION (tv_init_ms v).
Proof. intros. unfold tv_init_ms, value, normal, BILLION, MILLION; cbn [sec sub]. lia. Qed.
Lemma init_tv_us v : 0 <= v -> value MILLION (tv_init_us v) = v /\ normal MILLION (tv_init_us v).
Proof. intros. unfold tv_init_us, value, normal, BILLION, MILLION; cbn [sec sub]. lia. Qed.

Lemma conv t : normal BILLION t ->
  normal MILLION (ts_to_tv t) /\ value MILLION (ts_to_tv t) = value BILLION t / 1000.
Proof. unfold normal, ts_to_tv, value, BILLION, MILLION; cbn [sec sub]. lia. Qed.
Lemma conv' t : normal MILLION t ->
  normal BILLION (tv_to_ts t) /\ value BILLION (tv_to_ts t) = value MILLION t * 1000 /\ ts_to_tv (tv_to_ts t) = t.
Proof.
  unfold normal, ts_to_tv, tv_to_ts, value, BILLION, MILLION; destruct t as [a b]; cbn [sec sub]. intros H.
  split; [lia|]. split; [lia|]. f_equal. lia.
Qed.
