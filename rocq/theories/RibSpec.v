(** What a user of the RIB may rely on (C104).  Only the calls made so far count. *)
From Coq Require Import List Bool NArith ZArith.
From Verif Require Import RibModel.
Import ListNotations.
Local Open Scope N_scope.

(** The component that has registered a name, by the history alone (latest call
    first): the first to ask for it since it was last given up. *)
Definition str_dec : forall a b : str, {a = b} + {a <> b} := list_eq_dec N.eq_dec.
Fixpoint has (h : list ev) (q : str) : option ops :=
  match h with
  | [] => None
  | Reg p o :: h' =>
      if str_dec p q then
        match has h' q with
        | Some x => Some x
        | None => if (length p <=? 300)%nat then Some o else None
        end
      else has h' q
  | Unreg p :: h' => if str_dec p q then None else has h' q
  end.

(** Alphabetical order. *)
Inductive before_in : str -> str -> Prop :=
| BiNil : forall y b, before_in [] (y :: b)
| BiHd  : forall x a y b, x < y -> before_in (x :: a) (y :: b)
| BiTl  : forall x a b, before_in a b -> before_in (x :: a) (x :: b).
Inductive ascending : list str -> Prop :=
| AscNil : ascending []
| AscCons : forall a l, (forall b, In b l -> before_in a b) -> ascending l -> ascending (a :: l).

(** The path of a file of a component. *)
Definition file (name entry : str) : str := 47 :: name ++ 47 :: entry.
Definition dir (name : str) : str := 47 :: name.
(** A name that a path can name. *)
Definition plain (name : str) : Prop := ~ In 47 name /\ name <> [].
