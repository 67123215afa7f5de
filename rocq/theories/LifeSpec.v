(** What C102 says about the life of an IPCP. *)
From Coq Require Import List.
From Verif Require Import IpcpCmdModel LifeModel.
Import ListNotations.

(** No bootstrap and no enrolment is being executed. *)
Definition idle (s : sys) : Prop := running s = 0 /\ setting s = 0.
(** An execution in which there never was more than one at a time. *)
Inductive one_by_one : list event -> sys -> Prop :=
| First : one_by_one [] start
| Next : forall es s e s', one_by_one es s -> step e s = Some s' -> running s' + setting s' <= 1 -> one_by_one (es ++ [e]) s'.
(** The steps of the main thread only. *)
Fixpoint alone (n : nat) (s : sys) : option sys :=
  match n with O => Some s | S n => match step Main s with Some s' => alone n s' | None => None end end.
