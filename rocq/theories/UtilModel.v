(** The helper functions of src/lib/utils.c: the width of a number, the last part of a
    path, and copies of argument lists; and the path of the socket of an IPCP,
    src/lib/sockets.c:157-189.

    Simplifications: characters are numbers, a string is given without the 0 that ends
    it; an allocation succeeds or fails as [answers] says, and gives a new block. *)
From Coq Require Import List NArith ZArith Arith Bool String.
From Verif Require Import RibModel StatModel.
Import ListNotations.
Local Open Scope nat_scope.
Local Notation length := List.length.

(** n_digits, utils.c:30-40; the loop ends within [fuel] rounds, the number of bits of i. *)
Fixpoint n_digits_loop (fuel : nat) (n : nat) (i : N) : nat :=
  match fuel with
  | O => n
  | S f => if (9 <? i)%N then n_digits_loop f (S n) (i / 10)%N else n
  end.
Definition n_digits (i : N) : nat := n_digits_loop (N.to_nat (N.size i)) 1 i.

(** path_strip, utils.c:42-58: an index into the string; at its length is the 0.  NULL
    gives NULL. *)
Definition slash : N := 47.
Definition char_at (s : str) (i : nat) : N := nth i s 0%N.
Fixpoint strip_loop (s : str) (dst : nat) : nat :=
  match dst with
  | O => O
  | S d => if (char_at s (S d) =? slash)%N then S d else strip_loop s d
  end.
Definition path_strip (src : option str) : option str :=
  match src with
  | None => None
  | Some s =>
      let dst := strip_loop s (length s) in
      let dst := if (char_at s dst =? slash)%N then S dst else dst in
      Some (skipn dst s)
  end.

(** A cell of an array of pointers that was allocated: not written yet, NULL, or a block. *)
Inductive cell := Junk | Null | Ptr (k : nat).
Record heap := Heap { live : list nat; text : nat -> str; next : nat; answers : nat -> bool }.
Definition alloc (h : heap) : option nat * heap :=
  if answers h (next h) then (Some (next h), Heap (next h :: live h) (text h) (S (next h)) (answers h))
  else (None, Heap (live h) (text h) (S (next h)) (answers h)).
(** free(): None if the block is not allocated. *)
Definition free (k : nat) (h : heap) : option heap :=
  if existsb (Nat.eqb k) (live h)
  then Some (Heap (filter (fun x => negb (x =? k)) (live h)) (text h) (next h) (answers h)) else None.
Definition strdup (s : str) (h : heap) : option nat * heap :=
  match alloc h with
  | (Some k, h) => (Some k, Heap (live h) (fun x => if x =? k then s else text h x) (next h) (answers h))
  | (None, h) => (None, h)
  end.

(** argvlen, utils.c:60-71; the cells of the argument are pointers to strings or NULL.
    None: a read after the end of the array. *)
Fixpoint count (argv : list (option str)) (argc : nat) : option nat :=
  match argv with
  | [] => None
  | None :: _ => Some argc
  | Some _ :: t => count t (S argc)
  end.
Definition argvlen (argv : option (list (option str))) : option nat :=
  match argv with None => Some 0 | Some a => count a 0 end.

(** argvfree, utils.c:73-85; None: a read of what was not written, a read after the end,
    or a free of what is not allocated. *)
Fixpoint free_cells (cs : list cell) (h : heap) : option heap :=
  match cs with
  | [] => None
  | Junk :: _ => None
  | Null :: _ => Some h
  | Ptr k :: t => match free k h with None => None | Some h => free_cells t h end
  end.
Definition argvfree (argv : option (nat * list cell)) (h : heap) : option heap :=
  match argv with
  | None => Some h
  | Some (a, cs) => match free_cells cs h with None => None | Some h => free a h end
  end.

(** argvdup, utils.c:87-113. *)
Inductive outcome := Crash | Ret (r : option (nat * list cell)) (h : heap).
Definition set (i : nat) (v : cell) (cs : list cell) : list cell := firstn i cs ++ v :: skipn (S i) cs.
Fixpoint dup_loop (n i : nat) (argv : list (option str)) (a : nat) (cs : list cell) (h : heap) : outcome :=
  (* cell i is written next, in each case *)
  if length cs <=? i then Crash else
  match n with
  | O => Ret (Some (a, set i Null cs)) h
  | S n =>
      match nth_error argv i with
      | Some (Some s) =>
          match strdup s h with
          | (Some k, h) => dup_loop n (S i) argv a (set i (Ptr k) cs) h
          | (None, h) =>
              match argvfree (Some (a, set i Null cs)) h with
              | None => Crash
              | Some h => Ret None h
              end
          end
      | _ => Crash
      end
  end.
Definition argvdup (argv : option (list (option str))) (h : heap) : outcome :=
  match argv with
  | None => Ret None h
  | Some c =>
      match count c 0 with
      | None => Crash
      | Some argc =>
          match alloc h with
          | (None, h) => Ret None h
          | (Some a, h) => dup_loop argc 0 c a (repeat Junk (argc + 1)) h
          end
      end
  end.

(** ipcp_sock_path, sockets.c:157-189; the parts are those of sockets.h.in:30-34.  The
    block with the path holds it as its text.  SCrash: a write after the end of a block,
    or a free of what is not allocated. *)
Definition prefix : str := s2l "/var/run/ouroboros/ipcp".
Definition delim : str := s2l "_".
Definition suffix : str := s2l ".sock".
Inductive sock_outcome := SCrash | SRet (r : option nat) (h : heap).
Definition put_text (k : nat) (s : str) (h : heap) : heap :=
  Heap (live h) (fun x => if x =? k then s else text h x) (next h) (answers h).
Definition ipcp_sock_path (pid : Z) (h : heap) : sock_outcome :=
  let len := n_digits (Z.to_N (pid mod 2 ^ 32)) in
  match alloc h with
  | (None, h) => SRet None h
  | (Some p, h) =>
      if len + 1 <? length (sdec pid) + 1 then SCrash
      else
        let h := put_text p (sdec pid) h in
        let len := len + length prefix + length delim + length suffix in
        match alloc h with
        | (None, h) => match free p h with None => SCrash | Some h => SRet None h end
        | (Some f, h) =>
            let full := prefix ++ delim ++ text h p ++ suffix in
            if len + 1 <? length full + 1 then SCrash
            else
              let h := put_text f full h in
              match free p h with None => SCrash | Some h => SRet (Some f) h end
        end
  end.
