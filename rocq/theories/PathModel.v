(** How irm_bind_program finds the program: check_prog and check_prog_path of
    src/lib/irm.c:278-363.

    Strings are lists of bytes without the 0 at their end.  The file system is a
    function: no file, or a file with or without the bit S_IXUSR (which a
    directory can have, too); it does not change during a call.  malloc and
    strdup do not fail.  The value of PATH is the memory getenv points to, with
    its 0: the search writes into it. *)
From Coq Require Import NArith ZArith List Bool.
From Verif Require Import WireModel.
Import ListNotations.
Local Open Scope N_scope.

Notation str := (list N).
Notation fsys := (list N -> option bool).

Inductive found := Found (prog : str) | Error (e : Z).
Definition ENOENT : Z := -2. Definition EPERM : Z := -1. Definition EINVAL : Z := -22.

(* irm.c:278-289 *)
Definition check_prog (fs : fsys) (p : str) : option Z :=
  match fs p with None => Some ENOENT | Some false => Some EPERM | Some true => None end.

(* irm.c:334-335: up to the next ':' or 0 *)
Fixpoint scan (l : list N) : list N * list N :=
  match l with
  | [] => ([], [])
  | c :: l' => if (c =? 0) || (c =? 58) then ([], l) else let (a, b) := scan l' in (c :: a, b)
  end.

(* irm.c:327-356.  [before], [rest]: the memory before and from pstop; the
   memory ends at path_end *)
Fixpoint search (fuel : nat) (fs : fsys) (prog : str) (before rest : list N) (perm : bool) : found * list N :=
  match fuel, rest with
  | _, [] => (Error (if perm then ENOENT else EPERM), before)
  | O, _ => (Error 0, before ++ rest)
  | S fuel, c :: _ =>
      if negb (c =? 47) then (Error EINVAL, before ++ rest)
      else
        let (d, tail) := scan rest in
        let before' := before ++ d ++ [0] in
        let rest' := tl tail in
        match check_prog fs (d ++ [47] ++ prog) with
        | Some e => search fuel fs prog before' rest' (perm && negb (e =? EPERM)%Z)
        | None => (Found (d ++ [47] ++ prog), before' ++ rest')
        end
  end.

(* irm.c:291-363; [env]: the memory of the value of PATH *)
Definition check_prog_path (fs : fsys) (env : option (list N)) (prog : str) : found * option (list N) :=
  match env with
  | None => (Error ENOENT, None)
  | Some m =>
      let n := length (cstr m) in
      if Nat.eqb n 0 || existsb (N.eqb 47) prog
      then (match check_prog fs prog with Some e => Error e | None => Found prog end, env)
      else let (r, m') := search (S n) fs prog [] (firstn (S n) m) true in (r, Some (m' ++ skipn (S n) m))
  end.

(** Several calls of a program, one after the other: the results and PATH. *)
Fixpoint calls (fs : fsys) (env : option (list N)) (l : list str) : list found * option (list N) :=
  match l with
  | [] => ([], env)
  | p :: l => let (r, env') := check_prog_path fs env p in let (rs, e) := calls fs env' l in (r :: rs, e)
  end.
