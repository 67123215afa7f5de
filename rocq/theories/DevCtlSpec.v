(* What fccntl(3) promises, as a function of the history. *)
From Coq Require Import List NArith ZArith Bool.
From Verif Require Import DevCtlModel.
Import ListNotations.
Open Scope N_scope.

Definition same (v w : who) : bool := match v, w with A, A | B, B => true | _, _ => false end.

(* The last value program w gave for something, newest event first. *)
Fixpoint last {X} (pick : cmd -> option X) (w : who) (l : list event) (x : X) : X :=
  match l with
  | [] => x
  | Ctl v c :: l' => if same v w then last pick w l' (match pick c with Some y => y | None => x end)
                     else last pick w l' x
  | _ :: l' => last pick w l' x
  end.

Definition flags_set (c : cmd) : option N := match c with SFlags f => Some (f mod 65536) | _ => None end.
Definition snd_set (c : cmd) : option (option Z) := match c with SSndTimeo t => Some t | _ => None end.
Definition rcv_set (c : cmd) : option (option Z) := match c with SRcvTimeo t => Some t | _ => None end.

(* The modes of fccntl.h, by their two low bits. *)
Inductive mode : Type := RdOnly | WrOnly | RdWr.
Definition mode_of (f : N) : mode :=
  match f mod 4 with 0 => RdOnly | 1 => WrOnly | _ => RdWr end.

Definition other (w : who) : who := match w with A => B | B => A end.

(* Whether the flow is down: the last word on it, by either program, or by one
   of them leaving. *)
Fixpoint down (l : list event) (d : bool) : bool :=
  match l with
  | [] => d
  | Ctl _ (SFlags f) :: l' => down l' (N.testbit f 2)
  | Gone _ :: l' => down l' true
  | _ :: l' => down l' d
  end.

(* Whether somebody left. *)
Fixpoint gone (l : list event) : bool :=
  match l with [] => false | Gone _ :: _ => true | _ :: l' => gone l' end.

Definition mode_after (w : who) (l : list event) : mode :=
  mode_of (last flags_set w l FLOWFDEFAULT).

(* When a program may write: its own mode lets it, the other program has not
   made the flow write-only for itself, and the flow is up. *)
Definition may_write (w : who) (l : list event) : Prop :=
  mode_after w l <> RdOnly /\ mode_after (other w) l <> WrOnly /\ down l false = false.

(* Histories in which nobody asks for a write-only flow or is declared dead. *)
Definition plain (e : event) : Prop :=
  match e with
  | Ctl _ (SFlags f) => N.testbit f 0 = false
  | Silent _ => False
  | _ => True
  end.
