(** What C97 says about the IPCP over Ethernet with LLC. *)
From Coq Require Import List Arith NArith ZArith Bool.
From Verif Require Import Bytes EthLlcModel.
Import ListNotations.
Open Scope N_scope.

Definition size (d : list N) : N := N.of_nat (length d).
Definition mac_ok (a : N) : Prop := a < 2 ^ 48.
Definition cfg_ok (c : cfg) : Prop := mac_ok (me c) /\ 3 <= mtu c <= 1500.

(** What a frame says. *)
Definition to_of (f : list N) : N := unbe (firstn 6 f).
Definition from_of (f : list N) : N := unbe (firstn 6 (skipn 6 f)).
Definition says (f : list N) : N := unbe (firstn 2 (skipn 12 f)).
Definition dsap_of (f : list N) : N := nth 14 f 0.
Definition ssap_of (f : list N) : N := nth 15 f 0.
Definition carries (f : list N) : list N := skipn 17 f.
Definition whole (c : cfg) (f : list N) : Prop := 17 <= size f <= mtu c + 17.

(** SAPs are sent with the first bit last. *)
Definition swapped (a b : N) : Prop := forall i, i < 8 -> N.testbit a i = N.testbit b (7 - i).

(** A flow that has a SAP. *)
Definition opened (s : st) (fd : N) : Prop := sap (tbl s fd) <> (-1)%Z.

(** A step of an IPCP whose IRMd uses each descriptor once until it is
    deallocated, whose requests are not refused, and that does not run into one
    of the other failures. *)
Definition tame (L : nat) (c : cfg) (s : st) (e : ev) : Prop :=
  let o := snd (step L c s e) in
  ~ In Crashed o /\ (forall fd r data, In (Answered fd r data) o -> r = 0%Z) /\
  match e with
  | Alloc fd _ _ _ _ => ~ opened s fd
  | Respond fd _ _ _ => ~ opened s fd /\ ~ In Failed o
  | _ => True
  end.
Fixpoint orderly (L : nat) (c : cfg) (h : list ev) : Prop :=
  match h with [] => True | e :: h => orderly L c h /\ tame L c (fst (run L c h)) e end.
