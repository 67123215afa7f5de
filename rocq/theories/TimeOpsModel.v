(** Model of include/ouroboros/time.h.

    A timespec is (seconds, nanoseconds), a timeval (seconds, microseconds).
    time_t and long are 64-bit; overflow beyond 2^63 is not modelled. C's
    division truncates towards zero: [Z.quot]. *)
From Coq Require Import ZArith.
Open Scope Z_scope.

Definition MILLION : Z := 1000000.        (* time.h:34 *)
Definition BILLION : Z := 1000000000.     (* time.h:35 *)

Record tm : Type := mk_tm { sec : Z; sub : Z }.

(** time.h:40-43, the initialisers. *)
Definition ts_init_ms (ms : Z) : tm := mk_tm (Z.quot ms 1000) (Z.rem ms 1000 * MILLION).
Definition ts_init_us (us : Z) : tm := mk_tm (Z.quot us MILLION) (Z.rem us MILLION * 1000).
Definition ts_init_ns (ns : Z) : tm := mk_tm (Z.quot ns BILLION) (Z.rem ns BILLION).
(** time.h:46-47. *)
Definition tv_init_ms (ms : Z) : tm := mk_tm (Z.quot ms 1000) (Z.rem ms 1000 * 1000).
Definition tv_init_us (us : Z) : tm := mk_tm (Z.quot us MILLION) (Z.rem us MILLION).

(** time.h:50-55. *)
Definition ts_diff_ns (t0 tx : tm) : Z := (sec tx - sec t0) * BILLION + (sub tx - sub t0).
Definition ts_diff_us (t0 tx : tm) : Z := (sec tx - sec t0) * MILLION + Z.quot (sub tx - sub t0) 1000.
Definition ts_diff_ms (t0 tx : tm) : Z := (sec tx - sec t0) * 1000 + Z.quot (sub tx - sub t0) MILLION.

(** time.h:58-61. *)
Definition tv_diff_us (t0 tx : tm) : Z := (sec tx - sec t0) * MILLION + Z.quot (sub tx - sub t0) 1000.
Definition tv_diff_ms (t0 tx : tm) : Z := (sec tx - sec t0) * 1000 + Z.quot (sub tx - sub t0) MILLION.

(** The loop [while (x >= unit) { x -= unit; ++sec; }] of ts_add and tv_add.
    The fuel is the number of iterations plus one; [None] would mean it ran
    out. *)
Fixpoint carry (fuel : nat) (unit s x : Z) : option tm :=
  match fuel with
  | O => None
  | S f => if x >=? unit then carry f unit (s + 1) (x - unit) else Some (mk_tm s x)
  end.
(** The loop [while (x < 0) { x += unit; --sec; }] of ts_diff and tv_diff. *)
Fixpoint borrow (fuel : nat) (unit s x : Z) : option tm :=
  match fuel with
  | O => None
  | S f => if x <? 0 then borrow f unit (s - 1) (x + unit) else Some (mk_tm s x)
  end.

Definition add_unit (unit : Z) (t intv : tm) : option tm :=
  let x := sub t + sub intv in carry (S (Z.to_nat (x / unit))) unit (sec t + sec intv) x.
Definition diff_unit (unit : Z) (t intv : tm) : option tm :=
  let x := sub t - sub intv in borrow (S (Z.to_nat (- (x / unit)))) unit (sec t - sec intv) x.

(** time.h:65-75, 77-87, 91-101, 103-113. *)
Definition ts_add := add_unit BILLION.
Definition ts_diff := diff_unit BILLION.
Definition tv_add := add_unit MILLION.
Definition tv_diff := diff_unit MILLION.

(** time.h:117-121 and 124-128. *)
Definition tv_to_ts (tv : tm) : tm := mk_tm (sec tv) (sub tv * 1000).
Definition ts_to_tv (ts : tm) : tm := mk_tm (sec ts) (Z.quot (sub ts) 1000).
