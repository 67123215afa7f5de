(* When a flow may be declared down, and what a user must know about the
   surroundings to rely on it. *)
From Coq Require Import List ZArith Bool.
From Verif Require Import DevKaModel.
Import ListNotations.
Open Scope Z_scope.

(* Milliseconds in nanoseconds. *)
Definition ms (n : Z) : Z := n * 1000000.

(* The clock does not run backwards. *)
Fixpoint ordered (t0 : Z) (l : list (Z * event)) : Prop :=
  match l with
  | [] => True
  | (t, _) :: l' => t0 <= t /\ ordered t l'
  end.

(* The times at which packets came in. *)
Definition arrivals (l : list (Z * event)) : list Z :=
  flat_map (fun te => match snd te with Arrive _ _ => [fst te] | _ => [] end) l.

(* No packet waits longer than L in the ring before a thread takes it. *)
Definition waits_within (L : Z) (k : ka) (t : Z) : Prop :=
  forall n s a, In (n, (s, a)) (rxq k) -> t - a <= L.

(* A read that returns does so within W of the call. *)
Definition reads_within (W : Z) (k : ka) (t : Z) (e : event) : Prop :=
  forall c m, e = ReadStep m -> rd k = Some c -> t - c <= W.

(* A condition that holds at each event of a history. *)
Fixpoint throughout (P : ka -> Z -> event -> Prop) (k : ka) (l : list (Z * event)) : Prop :=
  match l with
  | [] => True
  | (t, e) :: l' => P k t e /\ throughout P (fst (step k t e)) l'
  end.

(* The calls of reads that returned something (fst: when they were called). *)
Definition read_call (k : ka) (e : event) : option Z :=
  match e, rd k with
  | ReadStep _, Some c =>
      match frq k, rxq k with
      | S _, _ => Some c
      | O, (S _, _) :: _ => Some c
      | O, _ => None
      end
  | _, _ => None
  end.

(* Both ends of a flow, and a network that delivers within D; both programs
   look at their flows at least every d. *)
Record timely (d D L W : Z) (l : link) (t : Z) (e : levent) : Prop := {
  tick_a : t - tickA l <= d;
  tick_b : t - tickB l <= d;
  net_ab : forall n s, In (n, s) (ab l) -> t - s <= D;
  net_ba : forall n s, In (n, s) (ba l) -> t - s <= D;
  wait_a : waits_within L (endA l) t;
  wait_b : waits_within L (endB l) t;
  read_a : forall ev n, e = At SideA ev n -> reads_within W (endA l) t ev;
  read_b : forall ev n, e = At SideB ev n -> reads_within W (endB l) t ev;
  (* rings have room, and packets come from the other end only *)
  no_loss : forall s ev n, e = At s ev n ->
    ev <> Write false /\ forall m u, ev <> Arrive m u
}.

Inductive healthy (T d D L W : Z) : link -> Z -> Prop :=
| h_start : forall ta tb, Z.abs (ta - tb) <= W ->
    healthy T d D L W (Link (ka_init T ta) (ka_init T tb) [] [] ta tb) (Z.max ta tb)
| h_step : forall l now t e, healthy T d D L W l now -> now <= t ->
    timely d D L W l t e -> healthy T d D L W (fst (lstep l t e)) t.

(* The times at which an end handed packets to the layer below. *)
Fixpoint sent_times (k : ka) (l : list (Z * event)) : list Z :=
  match l with
  | [] => []
  | (t, e) :: l' =>
      (match snd (step k t e) with Sent => [t] | _ => [] end) ++ sent_times (fst (step k t e)) l'
  end.

(* The last time the program looked at its flows. *)
Definition last_tick (t0 : Z) (l : list (Z * event)) : Z :=
  fold_left (fun x te => match snd te with Tick => fst te | _ => x end) l t0.
