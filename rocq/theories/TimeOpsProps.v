(** C42: time arithmetic. *)
From Coq Require Import ZArith Lia.
From Verif Require Import TimeOpsModel TimeOpsProofs.
Open Scope Z_scope.

(** [sec t * 1000000000 + sub t] is the time in nanoseconds of a timespec,
    [sec t * 1000000 + sub t] the time in microseconds of a timeval. *)
Definition ns (t : tm) : Z := sec t * 1000000000 + sub t.
Definition us (t : tm) : Z := sec t * 1000000 + sub t.
Definition ts_ok (t : tm) : Prop := 0 <= sub t < 1000000000.
Definition tv_ok (t : tm) : Prop := 0 <= sub t < 1000000.

Theorem ts_add_exact t i : ts_ok t -> ts_ok i ->
  exists r, ts_add t i = Some r /\ ns r = ns t + ns i /\ ts_ok r.
Proof. intros H H'. apply (add_exact BILLION); unfold BILLION, ts_ok in *; lia. Qed.
Print Assumptions ts_add_exact.

Theorem ts_diff_exact t i : ts_ok t -> ts_ok i ->
  exists r, ts_diff t i = Some r /\ ns r = ns t - ns i /\ ts_ok r.
Proof. intros H H'. apply (diff_exact BILLION); unfold BILLION, ts_ok in *; lia. Qed.
Print Assumptions ts_diff_exact.

Theorem tv_add_exact t i : tv_ok t -> tv_ok i ->
  exists r, tv_add t i = Some r /\ us r = us t + us i /\ tv_ok r.
Proof. intros H H'. apply (add_exact MILLION); unfold MILLION, tv_ok in *; lia. Qed.
Print Assumptions tv_add_exact.

Theorem tv_diff_exact t i : tv_ok t -> tv_ok i ->
  exists r, tv_diff t i = Some r /\ us r = us t - us i /\ tv_ok r.
Proof. intros H H'. apply (diff_exact MILLION); unfold MILLION, tv_ok in *; lia. Qed.
Print Assumptions tv_diff_exact.

(** The nanosecond difference is exact; the others are off by less than one
    unit (they truncate the sub-second part only, so the direction of rounding
    depends on its sign). *)
Theorem ts_difference_rounded t0 tx :
  ts_diff_ns t0 tx = ns tx - ns t0 /\
  Z.abs (1000 * ts_diff_us t0 tx - (ns tx - ns t0)) < 1000 /\
  Z.abs (1000000 * ts_diff_ms t0 tx - (ns tx - ns t0)) < 1000000.
Proof.
  split; [unfold ts_diff_ns, ns, BILLION; lia|].
  split; [exact (ts_diff_us_near t0 tx)|exact (ts_diff_ms_near t0 tx)].
Qed.
Print Assumptions ts_difference_rounded.

(** C42 refuted for timevals: the microsecond difference macro divides the
    microseconds by 1000, the millisecond one by a million. *)
Theorem tv_diff_us_refuted : exists t0 tx, tv_ok t0 /\ tv_ok tx /\
  us tx - us t0 = 500000 /\ tv_diff_us t0 tx = 500.
Proof. exists (mk_tm 1 0), (mk_tm 1 500000). vm_compute. intuition discriminate. Qed.
Print Assumptions tv_diff_us_refuted.
Theorem tv_diff_ms_refuted : exists t0 tx, tv_ok t0 /\ tv_ok tx /\
  us tx - us t0 = 500000 /\ tv_diff_ms t0 tx = 0.
Proof. exists (mk_tm 1 0), (mk_tm 1 500000). vm_compute. intuition discriminate. Qed.
Print Assumptions tv_diff_ms_refuted.

(** Initialisers and conversions. *)
Theorem time_init_exact v : 0 <= v ->
  (ns (ts_init_ms v) = v * 1000000 /\ ts_ok (ts_init_ms v)) /\
  (ns (ts_init_us v) = v * 1000 /\ ts_ok (ts_init_us v)) /\
  (ns (ts_init_ns v) = v /\ ts_ok (ts_init_ns v)) /\
  (us (tv_init_ms v) = v * 1000 /\ tv_ok (tv_init_ms v)) /\
  (us (tv_init_us v) = v /\ tv_ok (tv_init_us v)).
Proof.
  intros H. exact (conj (init_ms v H) (conj (init_us v H) (conj (init_ns v H) (conj (init_tv_ms v H) (init_tv_us v H))))).
Qed.
Print Assumptions time_init_exact.

Theorem time_conversions t :
  (ts_ok t -> tv_ok (ts_to_tv t) /\ us (ts_to_tv t) = ns t / 1000) /\
  (tv_ok t -> ts_ok (tv_to_ts t) /\ ns (tv_to_ts t) = us t * 1000 /\ ts_to_tv (tv_to_ts t) = t).
Proof. exact (conj (conv t) (conv' t)). Qed.
Print Assumptions time_conversions.

Example ts_add_ex : ts_ok (mk_tm 3 900000000) /\ ts_ok (mk_tm 2 200000000) /\
  ts_add (mk_tm 3 900000000) (mk_tm 2 200000000) = Some (mk_tm 6 100000000) /\
  ts_diff (mk_tm 3 100000000) (mk_tm 2 200000000) = Some (mk_tm 0 900000000) /\
  ts_diff (mk_tm 3 100000000) (mk_tm 3 200000000) = Some (mk_tm (-1) 900000000) /\
  tv_add (mk_tm 3 900000) (mk_tm 2 200000) = Some (mk_tm 6 100000).
Proof. vm_compute. intuition discriminate. Qed.
