(** The tree of files in which a process shows its state (the RIB):
    src/lib/rib.c.  Components of the process register a directory each; the
    file system calls of any user end up in rib_read, rib_readdir and
    rib_getattr.

    Strings are lists of bytes, without the final NUL.  Simplifications: malloc
    succeeds; what a component does is given by its three operations; rib_init
    has been called; the lock makes every call one step (rib_getattr, which takes
    it twice, is one step as well); readdir on a handle that is not seekable,
    which returns an error at once (rib.c:143-144), is left out; the mode, the
    owner and the clock of rib_getattr are left out, except that it is known
    whether a path is a directory or a file. *)
From Coq Require Import List Bool NArith ZArith.
Import ListNotations.
Local Open Scope N_scope.

Notation str := (list N).
Definition SEP : N := 47.       (* include/ouroboros/rib.h:27 *)
Definition RIB_PATH_LEN : nat := 300%nat.   (* include/ouroboros/rib.h:26 *)

(** strcmp(a, b) == 0 and strcmp(a, b) < 0 *)
Fixpoint streq (a b : str) : bool :=
  match a, b with
  | [], [] => true
  | x :: a', y :: b' => (x =? y) && streq a' b'
  | _, _ => false
  end.
Fixpoint strlt (a b : str) : bool :=
  match a, b with
  | [], [] => false
  | [], _ :: _ => true
  | _ :: _, [] => false
  | x :: a', y :: b' => if x =? y then strlt a' b' else x <? y
  end.

(** What a read gives: the value returned and the string left in the buffer.
    [Crash]: the code reads or writes outside an object or reads bytes it has
    not written. *)
Inductive rd := Ret (r : Z) (text : str) | Crash.
(** What readdir of a component gives. *)
Inductive ld := Listed (l : list str) | LFail | LCrash.
(** What getattr of a component gives. *)
Inductive at_ := Attr (size mtime : Z) | ACrash.

(** include/ouroboros/rib.h:38-45: struct rib_ops *)
Record ops := Ops { o_read : str -> N -> rd; o_list : ld; o_attr : str -> at_ }.

(** rib.c:54-62: struct reg_comp and the list of them *)
Definition rib := list (str * ops).

(** rib.c:404-450: rib_reg.  The list is walked up to the first name that is
    larger; the new one is put before it. *)
Fixpoint put (l : rib) (p : str) (o : ops) : option rib :=
  match l with
  | [] => Some [(p, o)]
  | (q, x) :: l' => if streq q p then None
                    else if strlt p q then Some ((p, o) :: (q, x) :: l')
                    else match put l' p o with Some m => Some ((q, x) :: m) | None => None end
  end.
Definition rib_reg (mnt : bool) (l : rib) (p : str) (o : ops) : Z * rib :=
  if negb mnt then (0%Z, l)
  else match put l p o with
       | None => ((-1)%Z, l)                                   (* -EPERM *)
       | Some m => if (RIB_PATH_LEN <? length p)%nat then ((-1)%Z, l) else (0%Z, m)
       end.

(** rib.c:452-476: rib_unreg *)
Fixpoint drop (l : rib) (p : str) : rib :=
  match l with
  | [] => []
  | (q, x) :: l' => if streq q p then l' else (q, x) :: drop l' p
  end.
Definition rib_unreg (mnt : bool) (l : rib) (p : str) : rib := if negb mnt then l else drop l p.

(** strstr(s, "/"): what is before the first separator, and what is after it *)
Fixpoint before (s : str) : str :=
  match s with [] => [] | c :: r => if c =? SEP then [] else c :: before r end.
Fixpoint after (s : str) : option str :=
  match s with [] => None | c :: r => if c =? SEP then Some r else after r end.

(** the walk of the list in rib.c:117-124, 205-221 and 241-247 *)
Fixpoint look (l : rib) (p : str) : option ops :=
  match l with
  | [] => None
  | (q, x) :: l' => if streq p q then Some x else look l' p
  end.

(** rib.c:93-129: rib_read.  [path] starts with a separator. *)
Definition rib_read (l : rib) (path : str) (size : N) : rd :=
  if (RIB_PATH_LEN <? length path)%nat then Ret (-1) []
  else match look l (before (tl path)) with
       | Some o => o_read o (tl path) size
       | None => Ret (-1) []
       end.

(** rib.c:131-182: rib_readdir; the names given to filler, after "." and ".." *)
Definition DOT : N := 46.
Fixpoint dirs (l : rib) (p : str) : ld :=
  match l with
  | [] => Listed []
  | (q, x) :: l' =>
      if streq p q then
        match o_list x with
        | Listed a => match dirs l' p with Listed b => Listed (a ++ b) | y => y end
        | LFail => Listed []                                   (* rib.c:171-172 *)
        | LCrash => LCrash
        end
      else dirs l' p
  end.
Definition rib_readdir (l : rib) (path : str) : ld :=
  match (if streq path [SEP] then Listed (map fst l) else dirs l (tl path)) with
  | Listed a => Listed ([DOT] :: [DOT; DOT] :: a)
  | y => y
  end.

(** rib.c:184-265: __getattr and rib_getattr *)
Inductive st := IsDir | IsFile (size mtime : Z) | NoEnt | StCrash.
Definition rib_getattr (l : rib) (path : str) : st :=
  if streq path [SEP] then IsDir
  else match look l (tl path) with
       | Some _ => IsDir
       | None =>
           if (RIB_PATH_LEN <? length path)%nat then NoEnt
           else match look l (before (tl path)) with
                | Some o => match o_attr o (tl path) with Attr s m => IsFile s m | ACrash => StCrash end
                | None => NoEnt
                end
       end.

(** The calls of the components of a process, latest first. *)
Inductive ev := Reg (p : str) (o : ops) | Unreg (p : str).
Fixpoint tree (mnt : bool) (h : list ev) : rib :=
  match h with
  | [] => []
  | Reg p o :: h' => snd (rib_reg mnt (tree mnt h') p o)
  | Unreg p :: h' => rib_unreg mnt (tree mnt h') p
  end.
