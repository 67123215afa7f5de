(** Specification of the B-tree: a finite map as a list of entries with distinct
    keys. *)
From Coq Require Import List Arith NArith Bool.
From Verif Require Import BTreeModel.
Import ListNotations.
Open Scope nat_scope.

Definition smap : Type := list (N * N).
Fixpoint lookup (m : smap) (key : N) : option N :=
  match m with
  | [] => None
  | (k, v) :: t => if N.eqb k key then Some v else lookup t key
  end.
Definition del (m : smap) (key : N) : smap := filter (fun e => negb (N.eqb (fst e) key)) m.

(** Insertion succeeds for a non-NULL value and an absent key; removal succeeds for
    a present key, and without effect on an empty map. *)
Definition spec_insert (m : smap) (key val : N) : smap * bool :=
  if N.eqb val 0 then (m, false)
  else match lookup m key with Some _ => (m, false) | None => ((key, val) :: m, true) end.
Definition spec_remove (m : smap) (key : N) : smap * bool :=
  match m with
  | [] => (m, true)
  | _ => match lookup m key with Some _ => (del m key, true) | None => (m, false) end
  end.
Definition spec_search (m : smap) (key : N) : N :=
  match lookup m key with Some v => v | None => 0%N end.

(** Histories of insertions and removals. *)
Inductive uop : Type := UInsert (key val : N) | URemove (key : N).
Definition spec_step (m : smap) (o : uop) : smap * bool :=
  match o with UInsert key val => spec_insert m key val | URemove key => spec_remove m key end.
Fixpoint spec_run (m : smap) (ops : list uop) : smap * list bool :=
  match ops with
  | [] => (m, [])
  | o :: r => let '(m1, b) := spec_step m o in let '(m2, bs) := spec_run m1 r in (m2, b :: bs)
  end.

(** The same on the tree. *)
Definition tree_step (t : tree) (o : uop) : option (tree * bool) :=
  match o with UInsert key val => btree_insert t key val | URemove key => btree_remove t key end.
Fixpoint tree_run (t : tree) (ops : list uop) : option (tree * list bool) :=
  match ops with
  | [] => Some (t, [])
  | o :: r => match tree_step t o with
              | None => None
              | Some (t1, b) => match tree_run t1 r with
                                | None => None
                                | Some (t2, bs) => Some (t2, b :: bs)
                                end
              end
  end.

(** The tree holds exactly the entries of the map, in increasing order of keys. *)
Fixpoint increasing (l : list kv) : Prop :=
  match l with [] => True | x :: t => Forall (fun y => (fst x < fst y)%N) t /\ increasing t end.
Definition holds (t : tree) (m : smap) : Prop :=
  increasing (contents t) /\ forall key v, In (key, v) (contents t) <-> lookup m key = Some v.

(** At every removal, at most [lim] attempts to remove an absent key were made
    since the last successful removal. *)
Fixpoint few_absent (lim cnt : nat) (m : smap) (ops : list uop) : Prop :=
  match ops with
  | [] => True
  | o :: r =>
      let '(m1, b) := spec_step m o in
      match o with
      | UInsert _ _ => few_absent lim cnt m1 r
      | URemove _ => cnt <= lim /\ few_absent lim (if b then 0 else S cnt) m1 r
      end
  end.

(** Insertions and lookups only. *)
Definition no_remove (o : op) : Prop := match o with Remove _ => False | _ => True end.
Fixpoint ins_run (m : smap) (ops : list op) : smap * list res :=
  match ops with
  | [] => (m, [])
  | Insert key val :: r =>
      let '(m1, b) := spec_insert m key val in let '(m2, rs) := ins_run m1 r in (m2, RInt b :: rs)
  | Remove key :: r =>
      let '(m1, b) := spec_remove m key in let '(m2, rs) := ins_run m1 r in (m2, RInt b :: rs)
  | Search key :: r => let '(m2, rs) := ins_run m r in (m2, RVal (spec_search m key) :: rs)
  end.
