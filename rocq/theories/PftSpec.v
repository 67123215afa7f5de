(** The forwarding table as a user sees it: a finite map. *)
From Coq Require Import List NArith ZArith.
From Verif Require Import PftModel.
Import ListNotations.
Open Scope N_scope.

Section Spec.
  Variable V : Type.
  Definition fmap := N -> option V.
  Definition fempty : fmap := fun _ => None.
  Definition fset (m : fmap) (d : N) (v : option V) : fmap :=
    fun x => if x =? d then v else m x.

  (** Insert fails with -EPERM on a destination that is present, delete fails
      with -1 on one that is absent. *)
  Definition spec_step (m : fmap) (o : op V) : fmap * res V :=
    match o with
    | Insert d v => match m d with
                    | Some _ => (m, RInt (-1)%Z)
                    | None => (fset m d (Some v), RInt 0%Z)
                    end
    | Delete d => match m d with
                  | Some _ => (fset m d None, RInt 0%Z)
                  | None => (m, RInt (-1)%Z)
                  end
    | Flush => (fempty, RUnit)
    | Lookup d => (m, RVal (m d))
    end.

  Fixpoint spec_run (m : fmap) (ops : list (op V)) : list (res V) :=
    match ops with
    | [] => []
    | o :: t => let '(m', r) := spec_step m o in r :: spec_run m' t
    end.
End Spec.
Arguments fset {V}. Arguments fempty {V}. Arguments spec_run {V}. Arguments spec_step {V}.
