(** What a user expects of the layer the IRMd shows for an IPCP. *)
From Coq Require Import List Arith Bool.
Import ListNotations.
From Verif Require Import IrmLayerModel.

(** [s] is a state the system can be in after [l]. *)
Definition after (l : list act) (s : st) : Prop := exec init l = Some s.
(** The IRMd shows the IPCP as a member of the layer [x]. *)
Definition shown (s : st) (x : nat) : Prop := exists e, ent s = Some (e, Some x).
(** The IRMd shows the IPCP as a member of no layer. *)
Definition shown_out (s : st) : Prop := exists e, ent s = Some (e, None).
(** The IPCP is a member of [x]. *)
Definition member (s : st) (x : nat) : Prop := own s = Some x.
(** The IPCP has joined and its answer is on its way to the IRMd. *)
Definition coming (s : st) (x : nat) : Prop := exists i k e, reqs s i = Ans k e (Some x).
(** The request [i] was answered well. *)
Definition joined (s : st) (i : nat) : Prop := reqs s i = Done true.
Definition gives_up (a : act) : Prop := exists i, a = GiveUp i.
Definition asks (a : act) : Prop := exists i k, a = Get i k.
