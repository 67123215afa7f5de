(** What C100 says about the search for a program. *)
From Coq Require Import NArith ZArith List.
From Verif Require Import PathModel.
Import ListNotations.
Local Open Scope N_scope.

(** The directories of a path: what its colons separate. *)
Fixpoint join (l : list str) : str :=
  match l with [] => [] | [d] => d | d :: l => d ++ 58 :: join l end.
Definition directories (path : str) (l : list str) : Prop :=
  l <> [] /\ join l = path /\ forall d, In d l -> ~ In 58 d.

Definition absolute (d : str) : Prop := exists r, d = 47 :: r.
Definition file (d prog : str) : str := d ++ [47] ++ prog.
Definition executable (fs : fsys) (p : str) : Prop := fs p = Some true.
Definition denied (fs : fsys) (p : str) : Prop := fs p = Some false.

(** The first directory with the program counts, if none before it is
    relative. *)
Definition passed (fs : fsys) (prog : str) (l : list str) : Prop :=
  forall d, In d l -> absolute d /\ ~ executable fs (file d prog).
Definition answers (fs : fsys) (prog : str) (dirs : list str) (r : found) : Prop :=
  match r with
  | Found p => exists l1 d l2, dirs = l1 ++ d :: l2 /\ passed fs prog l1 /\ absolute d /\ executable fs (file d prog) /\ p = file d prog
  | Error e =>
      (e = (-22)%Z /\ exists l1 d l2, dirs = l1 ++ d :: l2 /\ passed fs prog l1 /\ ~ absolute d) \/
      (passed fs prog dirs /\
       ((e = (-1)%Z /\ exists d, In d dirs /\ denied fs (file d prog)) \/
        (e = (-2)%Z /\ forall d, In d dirs -> ~ denied fs (file d prog))))
  end.
(** What is not searched for. *)
Definition direct (fs : fsys) (prog : str) (r : found) : Prop :=
  match r with
  | Found p => p = prog /\ executable fs prog
  | Error e => (e = (-1)%Z /\ denied fs prog) \/ (e = (-2)%Z /\ fs prog = None)
  end.
(** The value of PATH, as programs see it, is [p]. *)
Definition value (env : option (list N)) (p : str) : Prop := exists rest, env = Some (p ++ 0 :: rest) /\ ~ In 0 p.
